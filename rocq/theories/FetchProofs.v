(* Proofs about requests, leftovers and sizes of the range cache. *)
From Coq Require Import List Arith Bool Lia NArith.
From Verif Require Import CacheModel CacheSpec CacheProofs FetchModel FetchSpec.
Import ListNotations.

(* ---- requests ---- *)
Lemma request_none : forall h cs st i r net io, read_request cs r = None ->
  read_step h cs st i r net io = read_step h cs st i r true io.
Proof.
  intros h cs st i r net io H. unfold read_request in H. unfold read_step.
  destruct (r_pc r); try reflexivity; [discriminate|].
  destruct (_ && _); [discriminate|reflexivity].
Qed.
Lemma request_some : forall h cs st i r io q, readers st i = Some r -> read_request cs r = Some q ->
  failed (read_step h cs st i r false io) i /\
  (inner_get (objs st) (fst (fst q)) (snd (fst q)) (snd q) <> None -> ~ failed (read_step h cs st i r true io) i).
Proof.
  intros h cs st i r io q Hr H. unfold read_request in H. unfold read_step.
  destruct (r_pc r) eqn:E; try discriminate.
  - injection H as <-. cbn [fst snd]. split.
    + eexists. split; [apply upd_eq|reflexivity].
    + destruct (inner_get _ _ _ _) as [d|]; [|congruence]. intros _ (r' & A & B). cbn in A. rewrite upd_eq in A.
      injection A as <-. discriminate.
  - destruct (_ && _) eqn:C; [|discriminate]. injection H as <-. cbn [fst snd]. split.
    + eexists. split; [apply upd_eq|reflexivity].
    + destruct (inner_get _ _ _ _) as [d|]; [|congruence]. intros _ (r' & A & B). cbn in A. rewrite upd_eq in A.
      injection A as <-. discriminate.
Qed.

Lemma hd_seq_ : forall b m, hd 0 (seq b (S m)) = b.
Proof. reflexivity. Qed.
Lemma last_seq_ : forall b m, last (seq b (S m)) 0 = b + m.
Proof.
  intros b m. rewrite seq_S. rewrite last_last. reflexivity.
Qed.

Section Alone.
Variable h : nat -> nat.
Variable cs : nat.
Hypothesis cs_pos : cs > 0.
Variable p : nat.
Variable D : list nat.

Definition b2n (b : bool) : nat := if b then 1 else 0.
(* how often chunk [c] will still be asked for *)
Definition pend (st : state) (r : reader) (c : nat) : nat :=
  let batch := b2n (existsb (Nat.eqb c) (r_batch r)) in
  let later := b2n (Nat.ltb (r_chunk r) c && Nat.leb c (r_last r) && missing st (p, c)) in
  let here b := b2n (Nat.eqb c (r_chunk r) && b) in
  match r_pc r with
  | PLook => batch + here (missing st (p, c)) + later
  | PFile f => batch + here (match disk st f with None => true | Some _ => false end) + later
  | PRefetch => batch + here true + later
  | PGot _ => batch + later
  | PStore _ _ => later
  | PDone _ | PErr | PPanic => 0
  end.
(* a read of the object that is well on its way *)
Definition going (r : reader) : Prop :=
  r_path r = p /\ r_last r * cs < length D /\
  match r_pc r with
  | PLook | PFile _ | PRefetch => r_chunk r <= r_last r /\ exists b m, r_batch r = seq b m /\ b + m = r_chunk r
  | PGot None => r_chunk r <= r_last r /\ exists b m, r_batch r = seq b (S m) /\ b + m = r_chunk r
  | PGot (Some _) => r_chunk r <= r_last r /\ exists b m, r_batch r = seq b m /\ b + m = r_chunk r
  | PStore todo _ => r_chunk r <= r_last r /\ r_batch r = [] /\ Forall (fun kd : key * list nat => fst (fst kd) = p /\ snd (fst kd) <= r_chunk r) todo
  | PErr => False
  | _ => True
  end.

Lemma in_seq_b : forall c b m, existsb (Nat.eqb c) (seq b m) = Nat.leb b c && Nat.ltb c (b + m).
Proof.
  intros c b m. revert b. induction m as [|m IH]; intros b; cbn [seq existsb].
  - destruct (Nat.leb_spec b c); [|reflexivity]. destruct (Nat.ltb_spec c (b + 0)); [lia|reflexivity].
  - rewrite IH. destruct (Nat.eqb_spec c b); subst.
    + cbn [orb]. rewrite Nat.leb_refl. destruct (Nat.ltb_spec b (b + S m)); [reflexivity|lia].
    + cbn [orb]. destruct (Nat.leb_spec (S b) c), (Nat.leb_spec b c); try lia; cbn [andb]; try reflexivity.
      destruct (Nat.ltb_spec c (S b + m)), (Nat.ltb_spec c (b + S m)); try lia; reflexivity.
Qed.
Lemma covers_seq : forall c b m, covers cs p c (p, b * cs, (b + m) * cs) = Nat.leb b c && Nat.ltb c (b + m).
Proof.
  intros c b m. unfold covers. rewrite Nat.eqb_refl. cbn [andb].
  assert (A : Nat.leb (b * cs) (c * cs) = Nat.leb b c).
  { destruct (Nat.leb_spec (b * cs) (c * cs)), (Nat.leb_spec b c); auto; exfalso.
    - assert (S c * cs <= b * cs) by (apply Nat.mul_le_mono_r; lia). cbn in *. lia.
    - assert (b * cs <= c * cs) by (apply Nat.mul_le_mono_r; lia). lia. }
  assert (B : Nat.leb ((c + 1) * cs) ((b + m) * cs) = Nat.ltb c (b + m)).
  { destruct (Nat.leb_spec ((c + 1) * cs) ((b + m) * cs)), (Nat.ltb_spec c (b + m)); auto; exfalso.
    - assert ((b + m) * cs <= c * cs) by (apply Nat.mul_le_mono_r; lia). lia.
    - assert ((c + 1) * cs <= (b + m) * cs) by (apply Nat.mul_le_mono_r; lia). lia. }
  rewrite A, B. reflexivity.
Qed.

Lemma missing_store : forall st k d c, c > snd k -> missing (cache_chunk_data st k d) (p, c) = missing st (p, c).
Proof.
  intros st k d c H. unfold cache_chunk_data. destruct (cache st k) eqn:E; [reflexivity|].
  unfold missing; cbn [cache disk]. rewrite updk_ne; [reflexivity|]. intros X; rewrite <- X in H; cbn in H; lia.
Qed.
Lemma missing_set : forall st i r k, missing (set_reader st i r) k = missing st k.
Proof. reflexivity. Qed.

Lemma split_keys : forall l d, Forall (fun kd : key * list nat => fst (fst kd) = p /\ In (snd (fst kd)) l) (split_batch cs p l d).
Proof.
  intros l. assert (G : forall l' d, incl l' l -> Forall (fun kd : key * list nat => fst (fst kd) = p /\ In (snd (fst kd)) l) (split_batch cs p l' d)).
  { induction l' as [|c l' IH]; intros d Hi; cbn [split_batch]; [constructor|].
    assert (In c l) by (apply Hi; left; reflexivity). assert (incl l' l) by (intros x Hx; apply Hi; right; exact Hx).
    destruct (Nat.ltb _ _); constructor; cbn; auto. }
  intros d. apply G. intros x; auto.
Qed.

Lemma pend_finish : forall st r cd c, going r -> r_chunk r <= r_last r ->
  pend st (finish_chunk cs r cd) c =
    if Nat.ltb (r_chunk r) (r_last r)
    then b2n (existsb (Nat.eqb c) (r_batch r)) + b2n (Nat.ltb (r_chunk r) c && Nat.leb c (r_last r) && missing st (p, c))
    else 0.
Proof.
  intros st r cd c G L. unfold finish_chunk. destruct (Nat.ltb_spec (r_chunk r) (r_last r)) as [H|H].
  - unfold pend; cbn [r_pc r_batch r_chunk r_last].
    destruct (Nat.eqb_spec c (S (r_chunk r))); subst.
    + destruct (Nat.ltb_spec (S (r_chunk r)) (S (r_chunk r))); [lia|]. destruct (Nat.ltb_spec (r_chunk r) (S (r_chunk r))); [|lia].
      destruct (Nat.leb_spec (S (r_chunk r)) (r_last r)); [|lia]. cbn [andb b2n]. lia.
    + cbn [andb b2n]. destruct (Nat.ltb_spec (S (r_chunk r)) c), (Nat.ltb_spec (r_chunk r) c); try lia; cbn [andb b2n]; lia.
  - unfold pend; cbn [r_pc]. unfold trim. destruct (Nat.ltb _ _); reflexivity.
Qed.

Lemma going_finish : forall r cd, going r -> r_chunk r <= r_last r ->
  (exists b m, r_batch r = seq b m /\ b + m = S (r_chunk r)) \/ r_batch r = [] ->
  going (finish_chunk cs r cd).
Proof.
  intros r cd (G1 & G2 & _) L B. unfold finish_chunk. destruct (Nat.ltb_spec (r_chunk r) (r_last r)).
  - unfold going; cbn [r_pc r_batch r_chunk r_last r_path]. split; [exact G1|]. split; [exact G2|]. split; [lia|].
    destruct B as [(b & m & B1 & B2)|B]; [exists b, m; auto|exists (S (r_chunk r)), 0; cbn; auto].
  - unfold going; cbn [r_pc r_batch r_chunk r_last r_path]. split; [exact G1|]. split; [exact G2|].
    unfold trim. destruct (Nat.ltb _ _); exact Logic.I.
Qed.

Definition hits (cs' p' c : nat) (qs : list (nat * nat * nat)) : nat := length (filter (covers cs' p' c) qs).

Lemma get_ok : forall o c b, o p = Some D -> c * cs < length D -> inner_get o p (c * cs) b <> None.
Proof.
  intros o c b Ho H. unfold inner_get. rewrite Ho. destruct (Nat.ltb_spec (c * cs) (length D)); [discriminate|lia].
Qed.
Lemma le_chunk : forall c l, c <= l -> l * cs < length D -> c * cs < length D.
Proof. intros c l H1 H2. assert (c * cs <= l * cs) by (apply Nat.mul_le_mono_r; lia). lia. Qed.

Lemma alone_step : forall st i r c, objs st p = Some D -> readers st i = Some r -> going r ->
  exists r', readers (step h cs st (EStep i true true)) i = Some r' /\ going r' /\
    objs (step h cs st (EStep i true true)) p = Some D /\
    pend st r c = hits cs p c (event_request cs st (EStep i true true)) + pend (step h cs st (EStep i true true)) r' c.
Proof.
  intros st i r c Ho Hr G. cbn [step event_request]. rewrite Hr. unfold read_request, read_step.
  pose proof G as (G1 & G2 & G3). rewrite G1.
  destruct (r_pc r) as [|f| |cd|todo cd|dd| |] eqn:E.
  - (* PLook *)
    destruct G3 as (L & b & m & B1 & B2).
    destruct (cache st (p, r_chunk r)) as [[d|f s]|] eqn:Ec.
    + eexists. split; [apply upd_eq|]. split; [|split; [exact Ho|]].
      * unfold going; cbn. repeat split; auto. exists b, m; auto.
      * unfold pend. rewrite E. cbn [at_pc r_pc r_batch r_chunk r_last hits filter length]. unfold hits; cbn [filter length].
        rewrite missing_set. destruct (Nat.eqb_spec c (r_chunk r)); [|cbn; lia]. subst c. unfold missing. rewrite Ec. cbn. lia.
    + eexists. split; [apply upd_eq|]. split; [|split; [exact Ho|]].
      * unfold going; cbn. repeat split; auto. exists b, m; auto.
      * unfold pend. rewrite E. cbn [at_pc r_pc r_batch r_chunk r_last]. unfold hits; cbn [filter length].
        rewrite missing_set. destruct (Nat.eqb_spec c (r_chunk r)); [|cbn; lia]. subst c. unfold missing. rewrite Ec. cbn. lia.
    + eexists. split; [apply upd_eq|]. split; [|split; [exact Ho|]].
      * unfold going; cbn. repeat split; auto. exists b, m. split; [rewrite B1, <- B2; symmetry; exact (seq_S m b)|exact B2].
      * unfold pend. rewrite E. cbn [r_pc r_batch r_chunk r_last]. unfold hits; cbn [filter length].
        rewrite missing_set, existsb_app. cbn [existsb]. rewrite B1, in_seq_b.
        destruct (Nat.eqb_spec c (r_chunk r)).
        -- subst c. unfold missing. rewrite Ec. destruct (Nat.ltb_spec (r_chunk r) (b + m)); [lia|]. rewrite andb_false_r. cbn. lia.
        -- cbn [andb orb b2n]. rewrite !orb_false_r. lia.
  - (* PFile *)
    destruct G3 as (L & b & m & B1 & B2).
    destruct (disk st f) as [[o d]|] eqn:Ed.
    + eexists. split; [apply upd_eq|]. split; [|split; [exact Ho|]].
      * unfold going; cbn. repeat split; auto. exists b, m; auto.
      * unfold pend. rewrite E, Ed. cbn [at_pc r_pc r_batch r_chunk r_last]. unfold hits; cbn [filter length].
        rewrite missing_set, andb_false_r. cbn. lia.
    + eexists. split; [apply upd_eq|]. split; [|split; [exact Ho|]].
      * unfold going; cbn. repeat split; auto. exists b, m; auto.
      * unfold pend. rewrite E, Ed. cbn [at_pc r_pc r_batch r_chunk r_last]. unfold hits; cbn [filter length].
        rewrite missing_set. lia.
  - (* PRefetch *)
    destruct G3 as (L & b & m & B1 & B2).
    pose proof (get_ok (objs st) (r_chunk r) ((r_chunk r + 1) * cs) Ho (le_chunk _ _ L G2)) as N.
    destruct (inner_get (objs st) p (r_chunk r * cs) ((r_chunk r + 1) * cs)) as [d|]; [|congruence].
    eexists. split; [apply upd_eq|]. split; [|split].
    + unfold going; cbn. repeat split; auto. exists b, m; auto.
    + cbn. unfold cache_chunk_data. destruct (cache st _); exact Ho.
    + unfold pend. rewrite E. cbn [at_pc r_pc r_batch r_chunk r_last]. rewrite missing_set.
      unfold hits; cbn [filter length]. rewrite covers_seq, andb_true_r.
      destruct (Nat.ltb_spec (r_chunk r) c).
      * rewrite missing_store by (cbn; lia). destruct (Nat.eqb_spec c (r_chunk r)); [lia|].
        destruct (Nat.leb_spec (r_chunk r) c); [|lia]. destruct (Nat.ltb_spec c (r_chunk r + 1)); [lia|]. cbn. lia.
      * cbn [andb b2n]. destruct (Nat.eqb_spec c (r_chunk r)).
        -- subst c. rewrite Nat.leb_refl. destruct (Nat.ltb_spec (r_chunk r) (r_chunk r + 1)); [|lia]. cbn. lia.
        -- destruct (Nat.leb_spec (r_chunk r) c); [lia|]. cbn. lia.
  - (* PGot *)
    assert (L : r_chunk r <= r_last r) by (destruct cd; tauto).
    assert (B : exists b m, r_batch r = seq b m /\ b + m = match cd with Some _ => r_chunk r | None => S (r_chunk r) end /\
                            (cd = None -> m <> 0)).
    { destruct cd; destruct G3 as (_ & b & m & B1 & B2); [exists b, m|exists b, (S m)]; repeat split; auto; try lia; discriminate. }
    destruct B as (b & m & B1 & B2 & B3). clear G3.
    destruct ((match cd with Some _ => true | None => false end || Nat.eqb (r_chunk r) (r_last r)) &&
              negb (match r_batch r with [] => true | _ => false end)) eqn:C.
    + apply andb_prop in C. destruct C as [C1 C2]. rewrite B1 in *.
      destruct m as [|m]; [discriminate|]. clear C2.
      rewrite hd_seq_, last_seq_.
      assert (Lb : b <= r_last r) by (destruct cd; lia).
      pose proof (get_ok (objs st) b ((b + m + 1) * cs) Ho (le_chunk _ _ Lb G2)) as N.
      destruct (inner_get (objs st) p (b * cs) ((b + m + 1) * cs)) as [d|]; [|congruence].
      eexists. split; [apply upd_eq|]. split; [|split; [exact Ho|]].
      * unfold going; cbn [r_pc r_batch r_chunk r_last r_path]. repeat split; auto.
        eapply Forall_impl; [|apply split_keys]. cbn beta. intros kd [K1 K2]. split; [exact K1|].
        apply in_seq in K2. destruct cd; lia.
      * unfold pend. rewrite E. cbn [r_pc r_batch r_chunk r_last]. rewrite missing_set, B1, in_seq_b.
        unfold hits; cbn [filter length].
        replace (b + m + 1) with (b + S m) by lia. rewrite covers_seq.
        destruct (Nat.leb b c && Nat.ltb c (b + S m)); cbn; lia.
    + eexists. split; [apply upd_eq|]. split; [|split; [exact Ho|]].
      * apply going_finish; auto. destruct cd as [d|].
        -- cbn [orb andb] in C. right. destruct (r_batch r); [reflexivity|discriminate].
        -- left. exists b, m. auto.
      * rewrite pend_finish by auto. unfold pend. rewrite E. unfold hits; cbn [filter length]. cbn [plus].
        destruct (Nat.ltb_spec (r_chunk r) (r_last r)); [reflexivity|].
        assert (r_chunk r = r_last r) by lia. rewrite H0, Nat.eqb_refl, orb_true_r in C. cbn [andb] in C.
        destruct (r_batch r) eqn:EB; [|discriminate]. cbn [existsb b2n].
        destruct (Nat.ltb_spec (r_chunk r) c), (Nat.leb_spec c (r_last r)); cbn; try reflexivity; try lia.
  - (* PStore *)
    destruct G3 as (L & B & T). destruct todo as [|[k' d] todo].
    + eexists. split; [apply upd_eq|]. split; [|split; [exact Ho|]].
      * apply going_finish; auto.
      * rewrite pend_finish by auto. unfold pend. rewrite E, B. unfold hits; cbn [filter length existsb b2n plus].
        rewrite missing_set.
        destruct (Nat.ltb_spec (r_chunk r) (r_last r)); [reflexivity|].
        destruct (Nat.ltb_spec (r_chunk r) c), (Nat.leb_spec c (r_last r)); cbn; try reflexivity; lia.
    + inversion T as [|? ? [T1 T2] T3]; subst. cbn [fst snd] in *.
      eexists. split; [apply upd_eq|]. split; [|split].
      * unfold going; cbn. repeat split; auto.
      * cbn. unfold cache_chunk_data. destruct (cache st _); exact Ho.
      * unfold pend. rewrite E. cbn [at_pc r_pc r_batch r_chunk r_last]. rewrite missing_set.
        unfold hits; cbn [filter length plus].
        destruct (Nat.ltb_spec (r_chunk r) c); [|reflexivity]. rewrite missing_store by lia. reflexivity.
  - exists r. split; [exact Hr|]. split; [exact G|]. split; [exact Ho|]. unfold pend. rewrite E. reflexivity.
  - contradiction.
  - exists r. split; [exact Hr|]. split; [exact G|]. split; [exact Ho|]. unfold pend. rewrite E. reflexivity.
Qed.

Lemma hits_app : forall c a b, hits cs p c (a ++ b) = hits cs p c a + hits cs p c b.
Proof. intros. unfold hits. rewrite filter_app, app_length. reflexivity. Qed.

Lemma alone_run : forall c n st i r, objs st p = Some D -> readers st i = Some r -> going r ->
  exists r', readers (run h cs st (repeat (EStep i true true) n)) i = Some r' /\ going r' /\
    pend st r c = hits cs p c (requests h cs st (repeat (EStep i true true) n)) +
                  pend (run h cs st (repeat (EStep i true true) n)) r' c.
Proof.
  intros c n. induction n as [|n IH]; intros st i r Ho Hr G.
  - exists r. split; [exact Hr|]. split; [exact G|]. reflexivity.
  - destruct (alone_step st i r c Ho Hr G) as (r1 & R1 & G1 & O1 & P1).
    destruct (IH _ i r1 O1 R1 G1) as (r2 & R2 & G2 & P2).
    exists r2. split; [exact R2|]. split; [exact G2|].
    cbn [repeat requests]. rewrite hits_app. change (run h cs st (EStep i true true :: repeat (EStep i true true) n))
      with (run h cs (step h cs st (EStep i true true)) (repeat (EStep i true true) n)). lia.
Qed.
End Alone.

Lemma steps_repeat : forall i net io n, steps_of i (repeat (EStep i net io) n) = n.
Proof.
  intros. unfold steps_of. induction n as [|n IH]; [reflexivity|]. cbn [repeat filter]. rewrite Nat.eqb_refl. cbn [length]. lia.
Qed.

Lemma chunks_le : forall cs s e, cs > 0 -> s < e -> s / cs <= (e - 1) / cs.
Proof. intros. apply Nat.div_le_mono; lia. Qed.
Lemma last_in : forall cs e n, cs > 0 -> 0 < e -> e <= n -> (e - 1) / cs * cs < n.
Proof. intros cs e n H1 H2 H3. pose proof (Nat.mul_div_le (e - 1) cs). lia. Qed.

Lemma alone_total : forall h cs st i p s e D n c, cs > 0 -> readers st i = None -> objs st p = Some D -> s < e -> e <= length D ->
  6 * ((e - 1) / cs - s / cs + 1) <= n ->
  hits cs p c (requests h cs st (ERead i p s e :: repeat (EStep i true true) n)) =
  b2n (Nat.leb (s / cs) c && Nat.leb c ((e - 1) / cs) && missing st (p, c)).
Proof.
  intros h cs st i p s e D n c Hcs Hi Ho H1 H2 Hn.
  pose proof (chunks_le cs s e Hcs H1) as HL.
  cbn [requests event_request app].
  set (st1 := step h cs st (ERead i p s e)).
  assert (E : readers st1 i = Some (start_read cs p s e)) by (unfold st1; cbn [step]; rewrite Hi; apply upd_eq).
  assert (S1 : start_read cs p s e = {| r_path := p; r_start := s; r_end := e; r_chunk := s / cs; r_last := (e - 1) / cs;
                                        r_batch := []; r_acc := []; r_pc := PLook |}).
  { unfold start_read. destruct (Nat.ltb_spec e s); [lia|]. destruct (Nat.eqb_spec e 0); [lia|]. cbn [orb].
    destruct (Nat.ltb_spec ((e - 1) / cs) (s / cs)); [lia|reflexivity]. }
  assert (O1 : objs st1 p = Some D) by (unfold st1; cbn [step]; rewrite Hi; exact Ho).
  assert (M1 : forall c', missing st1 (p, c') = missing st (p, c')) by (intros; unfold st1; cbn [step]; rewrite Hi; reflexivity).
  assert (G1 : going cs p D (start_read cs p s e)).
  { rewrite S1. unfold going; cbn. split; [reflexivity|]. split; [apply last_in; lia|]. split; [exact HL|].
    exists (s / cs), 0. split; [reflexivity|lia]. }
  destruct (alone_run h cs Hcs p D c n st1 i _ O1 E G1) as (r' & R' & G' & P').
  destruct (run_reader h cs (repeat (EStep i true true) n) st1 i _ E) as (r2 & F1 & F2 & _).
  rewrite R' in F1. injection F1 as <-. rewrite steps_repeat in F2.
  pose proof (mu_start cs p s e Hcs H1) as MS.
  assert (Z : pend p (run h cs st1 (repeat (EStep i true true) n)) r' c = 0).
  { destruct (mu_zero r' ltac:(lia)) as [[d P]|[P|P]]; unfold pend; rewrite P; reflexivity. }
  rewrite Z, Nat.add_0_r in P'. rewrite <- P'. rewrite S1. unfold pend; cbn [r_pc r_batch r_chunk r_last existsb b2n]. rewrite M1.
  destruct (Nat.eqb_spec c (s / cs)); destruct (Nat.ltb_spec (s / cs) c); destruct (Nat.leb_spec (s / cs) c); try lia; cbn [andb b2n plus].
  - subst c. destruct (Nat.leb_spec (s / cs) ((e - 1) / cs)); [|lia]. cbn [andb]. lia.
  - reflexivity.
  - reflexivity.
Qed.

(* ---- nothing cached: one request ---- *)
Section Cold.
Variable h : nat -> nat.
Variable cs : nat.
Hypothesis cs_pos : cs > 0.
Variable p first : nat.
Variable D : list nat.
Variable last_ : nat.

Definition cold (st : state) (r : reader) : Prop :=
  r_path r = p /\ r_last r = last_ /\ last_ * cs < length D /\ objs st p = Some D /\
  match r_pc r with
  | PLook => first <= r_chunk r <= last_ /\ r_batch r = seq first (r_chunk r - first) /\ forall c, r_chunk r <= c <= last_ -> cache st (p, c) = None
  | PGot None => first <= r_chunk r <= last_ /\ r_batch r = seq first (S (r_chunk r) - first) /\ forall c, r_chunk r < c <= last_ -> cache st (p, c) = None
  | PStore _ _ => r_chunk r = last_ /\ r_batch r = []
  | PDone _ | PPanic => True
  | _ => False
  end.
Definition owed (r : reader) : list (nat * nat * nat) :=
  match r_pc r with PLook | PGot _ => [(p, first * cs, (last_ + 1) * cs)] | _ => [] end.

Lemma cold_step : forall st i r, readers st i = Some r -> cold st r ->
  exists r', readers (step h cs st (EStep i true true)) i = Some r' /\ cold (step h cs st (EStep i true true)) r' /\
    owed r = event_request cs st (EStep i true true) ++ owed r'.
Proof.
  intros st i r Hr (C1 & C2 & C3 & C4 & C5). cbn [step event_request]. rewrite Hr. unfold read_request, read_step. rewrite C1.
  destruct (r_pc r) as [|f| |cd|todo cd|dd| |] eqn:E; try contradiction.
  - destruct C5 as (K1 & K2 & K3). rewrite (K3 (r_chunk r)) by lia. eexists. split; [apply upd_eq|]. split.
    + unfold cold; cbn [r_path r_last r_pc r_chunk r_batch objs cache set_reader]. repeat split; auto; try lia.
      * rewrite K2. replace (S (r_chunk r) - first) with (S (r_chunk r - first)) by lia. rewrite seq_S. f_equal. f_equal. lia.
      * intros c Hc. apply K3. lia.
    + unfold owed. rewrite E. reflexivity.
  - destruct cd as [|]; [contradiction|]. destruct C5 as (K1 & K2 & K3). cbn [orb].
    assert (NB : negb (match r_batch r with [] => true | _ => false end) = true).
    { rewrite K2. replace (S (r_chunk r) - first) with (S (r_chunk r - first)) by lia. reflexivity. }
    rewrite NB, andb_true_r, C2.
    destruct (Nat.eqb_spec (r_chunk r) last_) as [EL|NL].
    + assert (HH : hd 0 (r_batch r) = first) by (rewrite K2; replace (S (r_chunk r) - first) with (S (r_chunk r - first)) by lia; apply hd_seq_).
      assert (HT : last (r_batch r) 0 = last_) by (rewrite K2; replace (S (r_chunk r) - first) with (S (r_chunk r - first)) by lia; rewrite last_seq_; lia).
      rewrite HH, HT.
      pose proof (get_ok cs cs_pos p D (objs st) first ((last_ + 1) * cs) C4 (le_chunk cs cs_pos D first last_ ltac:(lia) C3)) as N.
      destruct (inner_get (objs st) p (first * cs) ((last_ + 1) * cs)) as [d|]; [|congruence].
      eexists. split; [apply upd_eq|]. split; [|unfold owed; rewrite E; reflexivity].
      unfold cold; cbn [r_path r_last r_pc r_chunk r_batch objs set_reader]. repeat split; auto.
    + eexists. split; [apply upd_eq|]. unfold finish_chunk. destruct (Nat.ltb_spec (r_chunk r) (r_last r)); [|lia].
      split; [|unfold owed; rewrite E; reflexivity].
      unfold cold; cbn [r_path r_last r_pc r_chunk r_batch objs cache set_reader]. repeat split; auto; try lia.
  - destruct C5 as (K1 & K2). destruct todo as [|[k' d] todo].
    + eexists. split; [apply upd_eq|]. unfold finish_chunk. destruct (Nat.ltb_spec (r_chunk r) (r_last r)); [lia|].
      split.
      * unfold cold; cbn. repeat split; auto; try congruence. unfold trim. destruct (Nat.ltb _ _); exact Logic.I.
      * unfold owed. rewrite E. cbn [r_pc]. unfold trim. destruct (Nat.ltb _ _); reflexivity.
    + eexists. split; [apply upd_eq|]. split; [|unfold owed; rewrite E; reflexivity].
      unfold cold; cbn. repeat split; auto. unfold cache_chunk_data. destruct (cache st k'); exact C4.
  - exists r. split; [exact Hr|]. split; [unfold cold; rewrite E; auto|]. unfold owed. rewrite E. reflexivity.
  - exists r. split; [exact Hr|]. split; [unfold cold; rewrite E; auto|]. unfold owed. rewrite E. reflexivity.
Qed.
Lemma cold_run : forall n st i r, readers st i = Some r -> cold st r ->
  exists r', readers (run h cs st (repeat (EStep i true true) n)) i = Some r' /\
    owed r = requests h cs st (repeat (EStep i true true) n) ++ owed r'.
Proof.
  induction n as [|n IH]; intros st i r Hr C; [exists r; split; [exact Hr|reflexivity]|].
  destruct (cold_step st i r Hr C) as (r1 & R1 & C1 & O1).
  destruct (IH _ i r1 R1 C1) as (r2 & R2 & O2). exists r2. split; [exact R2|].
  cbn [repeat requests]. rewrite O1, O2, app_assoc. reflexivity.
Qed.
End Cold.

Lemma cold_total : forall h cs st i p s e D n, cs > 0 -> readers st i = None -> objs st p = Some D -> s < e -> e <= length D ->
  (forall c, s / cs <= c <= (e - 1) / cs -> cache st (p, c) = None) ->
  6 * ((e - 1) / cs - s / cs + 1) <= n ->
  requests h cs st (ERead i p s e :: repeat (EStep i true true) n) = [(p, s / cs * cs, ((e - 1) / cs + 1) * cs)].
Proof.
  intros h cs st i p s e D n Hcs Hi Ho H1 H2 Hc Hn.
  pose proof (chunks_le cs s e Hcs H1) as HL.
  cbn [requests event_request app].
  set (st1 := step h cs st (ERead i p s e)).
  assert (E : readers st1 i = Some (start_read cs p s e)) by (unfold st1; cbn [step]; rewrite Hi; apply upd_eq).
  assert (S1 : start_read cs p s e = {| r_path := p; r_start := s; r_end := e; r_chunk := s / cs; r_last := (e - 1) / cs;
                                        r_batch := []; r_acc := []; r_pc := PLook |}).
  { unfold start_read. destruct (Nat.ltb_spec e s); [lia|]. destruct (Nat.eqb_spec e 0); [lia|]. cbn [orb].
    destruct (Nat.ltb_spec ((e - 1) / cs) (s / cs)); [lia|reflexivity]. }
  assert (C : cold cs p (s / cs) D ((e - 1) / cs) st1 (start_read cs p s e)).
  { rewrite S1. unfold cold; cbn [r_path r_last r_pc r_chunk r_batch]. split; [reflexivity|]. split; [reflexivity|].
    split; [apply last_in; lia|]. split; [unfold st1; cbn [step]; rewrite Hi; exact Ho|].
    split; [lia|]. split; [rewrite Nat.sub_diag; reflexivity|]. unfold st1; cbn [step]; rewrite Hi. exact Hc. }
  destruct (cold_run h cs Hcs p (s / cs) D ((e - 1) / cs) n st1 i _ E C) as (r' & R' & P').
  destruct (run_reader h cs (repeat (EStep i true true) n) st1 i _ E) as (r2 & F1 & F2 & _).
  rewrite R' in F1. injection F1 as <-. rewrite steps_repeat in F2.
  pose proof (mu_start cs p s e Hcs H1) as MS.
  assert (Z : owed cs p (s / cs) ((e - 1) / cs) r' = []).
  { destruct (mu_zero r' ltac:(lia)) as [[d P]|[P|P]]; unfold owed; rewrite P; reflexivity. }
  rewrite Z, app_nil_r in P'. rewrite <- P'. rewrite S1. reflexivity.
Qed.

(* ---- cached ranges need no request ---- *)
Section Held.
Variable h : nat -> nat.
Variable cs : nat.
Variable i p a b : nat.

Definition held (st : state) : Prop := forall c, a <= c <= b -> missing st (p, c) = false.
Definition served (st : state) : Prop :=
  forall r, readers st i = Some r ->
    r_path r = p /\ r_last r = b /\
    match r_pc r with
    | PLook => a <= r_chunk r <= b /\ r_batch r = []
    | PFile f => a <= r_chunk r <= b /\ r_batch r = [] /\ disk st f <> None
    | PGot cd => a <= r_chunk r <= b /\ r_batch r = [] /\ cd <> None
    | PDone _ | PPanic => True
    | _ => False
    end.

Lemma disk_kept : forall st ev f, keeps_entries ev -> disk st f <> None -> disk (step h cs st ev) f <> None.
Proof.
  intros st ev f K H.
  assert (U : forall g v, updk g (Some v) (disk st) f <> None).
  { intros g v E. apply updk_cases in E. destruct E as [[_ E]|[_ E]]; [discriminate|contradiction]. }
  destruct ev as [j q s e|j net io|k|g|t|t|t n|t|t|t|q d|q]; cbn [step]; try contradiction; try exact H.
  - destruct (readers st j); exact H.
  - destruct (readers st j) as [r|]; [|exact H]. unfold read_step.
    destruct (r_pc r) as [|g| |cd|todo cd| | |]; try exact H.
    + destruct (cache st _) as [[|]|]; exact H.
    + destruct (disk st g) as [[]|]; exact H.
    + destruct (if net then _ else _); [|exact H]. cbn. unfold cache_chunk_data. destruct (cache st _); exact H.
    + destruct (_ && _); [|exact H]. destruct (if net then _ else _); exact H.
    + destruct todo as [|[]]; [exact H|]. cbn. unfold cache_chunk_data. destruct (cache st _); exact H.
  - destruct (tasks st t) as [x|]; [|exact H]. destruct (t_phase x); try exact H. destruct (disk st (file_of h (t_key x))); [exact H|apply U].
  - destruct (tasks st t) as [x|]; [|exact H]. destruct (t_phase x); try exact H. destruct (disk st (file_of h (t_key x))); [exact H|apply U].
  - destruct (tasks st t) as [x|]; [|exact H]. destruct (t_phase x); try exact H. destruct (disk st (file_of h (t_key x))) as [[o d]|]; [|exact H].
    cbn. destruct (Nat.eqb o t); [apply U|exact H].
  - destruct (tasks st t) as [x|]; [|exact H]. destruct (t_phase x) as [|[|]|]; exact H.
Qed.
Lemma entry_kept : forall st ev k v, keeps_entries ev -> cache st k = Some v -> cache (step h cs st ev) k = Some v.
Proof.
  intros st ev k v K H.
  assert (C : forall k' d, cache (cache_chunk_data st k' d) k = Some v).
  { intros k' d. unfold cache_chunk_data. destruct (cache st k') eqn:E; [exact H|]. cbn. rewrite updk_ne; [exact H|]. congruence. }
  destruct ev as [j q s e|j net io|k'|g|t|t|t n|t|t|t|q d|q]; cbn [step]; try contradiction; try exact H.
  - destruct (readers st j); exact H.
  - destruct (readers st j) as [r|]; [|exact H]. unfold read_step.
    destruct (r_pc r) as [|g| |cd|todo cd| | |]; try exact H.
    + destruct (cache st (r_path r, r_chunk r)) as [[|]|]; exact H.
    + destruct (disk st g) as [[]|]; exact H.
    + destruct (if net then _ else _); [|exact H]. apply C.
    + destruct (_ && _); [|exact H]. destruct (if net then _ else _); exact H.
    + destruct todo as [|[]]; [exact H|]. apply C.
  - destruct (tasks st t) as [x|]; [|exact H]. destruct (t_phase x); try exact H. destruct (disk st (file_of h (t_key x))); exact H.
  - destruct (tasks st t) as [x|]; [|exact H]. destruct (t_phase x); try exact H. destruct (disk st (file_of h (t_key x))); exact H.
  - destruct (tasks st t) as [x|]; [|exact H]. destruct (t_phase x); try exact H. destruct (disk st (file_of h (t_key x))) as [[o d]|]; exact H.
  - destruct (tasks st t) as [x|]; [|exact H]. destruct (t_phase x) as [|[|]|]; exact H.
Qed.
Lemma held_step : forall st ev, keeps_entries ev -> held st -> held (step h cs st ev).
Proof.
  intros st ev K H c Hc. specialize (H c Hc). unfold missing in *.
  destruct (cache st (p, c)) as [[d|f s]|] eqn:E; [| |discriminate].
  - rewrite (entry_kept st ev _ _ K E). reflexivity.
  - rewrite (entry_kept st ev _ _ K E). assert (N : disk st f <> None) by (destruct (disk st f); [discriminate|discriminate H]).
    apply (disk_kept st ev f K) in N. destruct (disk (step h cs st ev) f); [reflexivity|congruence].
Qed.
Definition own_io (ev : event) : Prop := match ev with EStep j _ io => j = i -> io = true | _ => True end.
Lemma served_finish : forall r cd, r_path r = p -> r_last r = b -> a <= r_chunk r <= b -> r_batch r = [] ->
  r_path (finish_chunk cs r cd) = p /\ r_last (finish_chunk cs r cd) = b /\
  match r_pc (finish_chunk cs r cd) with
  | PLook => a <= r_chunk (finish_chunk cs r cd) <= b /\ r_batch (finish_chunk cs r cd) = []
  | PDone _ | PPanic => True
  | _ => False
  end.
Proof.
  intros r cd H1 H2 H3 H4. unfold finish_chunk. destruct (Nat.ltb_spec (r_chunk r) (r_last r)); cbn [r_path r_last r_pc r_chunk r_batch].
  - repeat split; auto; lia.
  - repeat split; auto. unfold trim. destruct (Nat.ltb _ _); exact Logic.I.
Qed.
Lemma served_step : forall st ev, keeps_entries ev -> own_io ev -> held st -> readers st i <> None -> served st -> served (step h cs st ev).
Proof.
  intros st ev K O H NR S r Hr.
  destruct (readers st i) as [r0|] eqn:E0; [|congruence]. specialize (S r0 E0).
  assert (Keep : readers (step h cs st ev) i = Some r0 -> r_path r = p /\ r_last r = b /\
    match r_pc r with
    | PLook => a <= r_chunk r <= b /\ r_batch r = []
    | PFile f => a <= r_chunk r <= b /\ r_batch r = [] /\ disk (step h cs st ev) f <> None
    | PGot cd => a <= r_chunk r <= b /\ r_batch r = [] /\ cd <> None
    | PDone _ | PPanic => True
    | _ => False
    end).
  { intros E1. rewrite E1 in Hr. injection Hr as <-. destruct S as (S1 & S2 & S3). split; [exact S1|]. split; [exact S2|].
    destruct (r_pc r0); auto. destruct S3 as (A & B & C). split; [exact A|]. split; [exact B|]. exact (disk_kept st ev _ K C). }
  destruct ev as [j q s e|j net io|k|g|t|t|t n|t|t|t|q d|q]; try contradiction;
    try (apply Keep; apply other_step; [exact E0|exact Logic.I]).
  destruct (Nat.eq_dec j i) as [->|NE]; [|apply Keep; apply other_step; [exact E0|exact NE]].
  cbn [own_io] in O. rewrite (O eq_refl) in *. clear O Keep. cbn [step] in Hr |- *. rewrite E0 in Hr |- *.
  unfold read_step in Hr |- *. destruct S as (S1 & S2 & S3). rewrite S1 in *.
  destruct (r_pc r0) as [|g| |cd|todo cd|dd| |] eqn:Epc; try contradiction.
  - destruct S3 as (A & B). pose proof (H _ A) as M. unfold missing in M.
    destruct (cache st (p, r_chunk r0)) as [[d|f s]|] eqn:Ec; [| |discriminate];
      cbn [set_reader readers disk] in Hr |- *; rewrite upd_eq in Hr; injection Hr as <-; cbn [at_pc r_path r_last r_pc r_chunk r_batch].
    + repeat split; auto; try lia. discriminate.
    + split; [exact S1|]. split; [exact S2|]. split; [exact A|]. split; [exact B|]. intros X. rewrite X in M. discriminate.
  - destruct S3 as (A & B & C). destruct (disk st g) as [[o d]|] eqn:Ed; [|congruence].
    cbn [set_reader readers disk] in Hr |- *; rewrite upd_eq in Hr; injection Hr as <-; cbn [at_pc r_path r_last r_pc r_chunk r_batch].
    repeat split; auto; try lia. discriminate.
  - destruct S3 as (A & B & C). rewrite B in Hr |- *. cbn [negb] in Hr |- *. rewrite andb_false_r in Hr |- *.
    cbn [set_reader readers disk] in Hr |- *; rewrite upd_eq in Hr; injection Hr as <-.
    destruct (served_finish r0 cd S1 S2 A B) as (F1 & F2 & F3). split; [exact F1|]. split; [exact F2|].
    destruct (r_pc (finish_chunk cs r0 cd)); auto; contradiction.
  - rewrite E0 in Hr. injection Hr as <-. rewrite Epc. auto.
  - rewrite E0 in Hr. injection Hr as <-. rewrite Epc. auto.
Qed.
Lemma served_quiet : forall st r, served st -> readers st i = Some r -> read_request cs r = None /\ r_pc r <> PErr.
Proof.
  intros st r S Hr. destruct (S r Hr) as (S1 & S2 & S3). unfold read_request.
  destruct (r_pc r) as [|g| |cd|todo cd|dd| |]; try contradiction; try (split; [reflexivity|discriminate]).
  destruct S3 as (A & B & C). rewrite B. cbn [negb]. rewrite andb_false_r. split; [reflexivity|discriminate].
Qed.
Lemma served_run : forall evs st, Forall keeps_entries evs -> Forall own_io evs -> held st -> readers st i <> None -> served st ->
  served (run h cs st evs) /\ forall ev1 ev2 ev, evs = ev1 ++ ev :: ev2 ->
    match ev with EStep j _ _ => j = i -> event_request cs (run h cs st ev1) ev = [] | _ => True end.
Proof.
  induction evs as [|ev evs IH]; intros st K O H NR S.
  - split; [exact S|]. intros [|? ?] ? ? E; discriminate.
  - inversion K as [|? ? K1 K2]; inversion O as [|? ? O1 O2]; subst.
    assert (NR' : readers (step h cs st ev) i <> None).
    { destruct (readers st i) as [r|] eqn:E; [|congruence]. destruct (run_reader h cs [ev] st i r E) as (r' & R' & _).
      cbn in R'. rewrite R'. discriminate. }
    destruct (IH _ K2 O2 (held_step st ev K1 H) NR' (served_step st ev K1 O1 H NR S)) as [A B]. split; [exact A|].
    intros ev1 ev2 ev0 E. destruct ev1 as [|e1 ev1].
    + cbn in E. injection E as <- <-. destruct ev; auto. intros ->. cbn [event_request run fold_left].
      destruct (readers st i) as [r|] eqn:Er; [|reflexivity]. rewrite (proj1 (served_quiet st r S Er)). reflexivity.
    + cbn in E. injection E as <- ->. exact (B ev1 ev2 ev0 eq_refl).
Qed.
End Held.

Lemma held_start : forall h cs st i p s e, cs > 0 -> s < e -> readers st i = None ->
  held p (s / cs) ((e - 1) / cs) st ->
  held p (s / cs) ((e - 1) / cs) (step h cs st (ERead i p s e)) /\
  readers (step h cs st (ERead i p s e)) i = Some (start_read cs p s e) /\
  served i p (s / cs) ((e - 1) / cs) (step h cs st (ERead i p s e)).
Proof.
  intros h cs st i p s e Hcs H1 Hi H. pose proof (chunks_le cs s e Hcs H1) as HL. cbn [step]. rewrite Hi.
  split; [exact H|]. split; [apply upd_eq|]. intros r Hr. cbn [set_reader readers] in Hr. rewrite upd_eq in Hr. injection Hr as <-.
  unfold start_read. destruct (Nat.ltb_spec e s); [lia|]. destruct (Nat.eqb_spec e 0); [lia|]. cbn [orb].
  destruct (Nat.ltb_spec ((e - 1) / cs) (s / cs)); [lia|]. cbn. repeat split; auto; lia.
Qed.

(* ---- leftovers ---- *)
Section Orphans.
Variable h : nat -> nat.
Variable cs : nat.

Definition all_accounted (st : state) : Prop := forall f, disk st f <> None -> accounted h st f.
Definition never_torn (st : state) : Prop := forall t x, tasks st t = Some x -> match t_phase x with Writing _ => False | _ => True end.

Lemma acc_same : forall st st', cache st' = cache st -> tasks st' = tasks st -> rem st' = rem st -> disk st' = disk st ->
  all_accounted st -> all_accounted st'.
Proof. intros st st' E1 E2 E3 E4 A f H. rewrite E4 in H. specialize (A f H). unfold accounted in *. rewrite E1, E2, E3. exact A. Qed.
Definition fresh_next (st : state) : Prop := forall t, next st <= t -> tasks st t = None.
Lemma acc_store : forall st k d, fresh_next st -> all_accounted st -> all_accounted (cache_chunk_data st k d).
Proof.
  intros st k d FN A. unfold cache_chunk_data. destruct (cache st k) eqn:E; [exact A|].
  intros f H. cbn in H. destruct (A f H) as [(k' & n & C)|[(t & x & T1 & T2 & T3)|R]].
  - left. exists k', n. cbn. rewrite updk_ne; [exact C|]. congruence.
  - right; left. exists t, x. cbn. rewrite upd_ne; [auto|]. intros ->. rewrite FN in T1; [discriminate|lia].
  - right; right. exact R.
Qed.
Lemma acc_drop : forall st k, all_accounted st -> all_accounted (drop_entry st k).
Proof.
  intros st k A f H. cbn in H. destruct (A f H) as [(k' & n & C)|[T|R]].
  - destruct (keqb k' k) eqn:E.
    + apply keqb_eq in E. subst k'. right; right. cbn. rewrite C. apply in_or_app. right. left. reflexivity.
    + left. exists k', n. cbn. unfold updk. rewrite E. exact C.
  - right; left. exact T.
  - right; right. cbn. apply in_or_app. left. exact R.
Qed.
Lemma remove_one_in : forall f g l, In f l -> f <> g -> In f (remove_one g l).
Proof.
  intros f g l. induction l as [|x l IH]; intros H N; [destruct H|]. cbn [remove_one]. destruct (keqb g x) eqn:E.
  - apply keqb_eq in E. subst x. destruct H as [<-|H]; [contradiction|exact H].
  - destruct H as [<-|H]; [left; reflexivity|right; exact (IH H N)].
Qed.
(* a task gets past its first phase, or stays past it *)
Lemma acc_task : forall st t x x' dk, all_accounted st -> tasks st t = Some x -> t_key x' = t_key x -> t_phase x' <> Queued ->
  (forall f, dk f <> None -> disk st f <> None \/ f = file_of h (t_key x)) ->
  all_accounted (set_task st t (Some x') dk).
Proof.
  intros st t x x' dk A T K P Dk f H. cbn in H.
  assert (Me : accounted h (set_task st t (Some x') dk) (file_of h (t_key x))).
  { right; left. exists t, x'. cbn. rewrite upd_eq, K. auto. }
  destruct (Dk f H) as [H'| ->]; [|exact Me].
  destruct (A f H') as [C|[(t' & y & T1 & T2 & T3)|R]].
  - left. exact C.
  - destruct (Nat.eq_dec t' t) as [->|N].
    + rewrite T in T1. injection T1 as <-. rewrite T2 in Me. exact Me.
    + right; left. exists t', y. cbn. rewrite upd_ne; auto.
  - right; right. exact R.
Qed.
Lemma fresh_step : forall st ev, fresh_next st -> fresh_next (step h cs st ev).
Proof.
  intros st ev FN.
  assert (C : forall k d, fresh_next (cache_chunk_data st k d)).
  { intros k d. unfold cache_chunk_data. destruct (cache st k); [exact FN|]. intros t H. cbn in *. rewrite upd_ne by lia. apply FN. lia. }
  assert (T : forall t x y dk, tasks st t = Some x -> fresh_next (set_task st t y dk)).
  { intros t x y dk E t' H. cbn in *. rewrite upd_ne; [apply FN; exact H|]. intros ->. rewrite FN in E; [discriminate|exact H]. }
  destruct ev as [i q s e|i net io|k|f|t|t|t n|t|t|t|q d|q]; cbn [step].
  - destruct (readers st i); exact FN.
  - destruct (readers st i) as [r|]; [|exact FN]. unfold read_step.
    destruct (r_pc r) as [|g| |cd|todo cd| | |]; try exact FN.
    + destruct (cache st _) as [[|]|]; exact FN.
    + destruct (disk st g) as [[]|]; exact FN.
    + destruct (if net then _ else _); [apply C|exact FN].
    + destruct (_ && _); [|exact FN]. destruct (if net then _ else _); exact FN.
    + destruct todo as [|[]]; [exact FN|apply C].
  - exact FN.
  - destruct (existsb _ _); exact FN.
  - destruct (tasks st t) as [x|] eqn:E; [|exact FN]. destruct (t_phase x); try exact FN. destruct (disk st (file_of h (t_key x))); exact (T _ _ _ _ E).
  - destruct (tasks st t) as [x|] eqn:E; [|exact FN]. destruct (t_phase x); try exact FN. destruct (disk st (file_of h (t_key x))); exact (T _ _ _ _ E).
  - destruct (tasks st t) as [x|] eqn:E; [|exact FN]. destruct (t_phase x); try exact FN. destruct (disk st (file_of h (t_key x))) as [[o d]|]; exact (T _ _ _ _ E).
  - destruct (tasks st t) as [x|] eqn:E; [|exact FN]. destruct (t_phase x) as [|[|]|]; try exact FN. exact (T _ _ _ _ E).
  - destruct (tasks st t) as [x|] eqn:E; [|exact FN]. destruct (t_phase x); try exact FN; exact (T t x None (disk st) E).
  - destruct (tasks st t) as [x|] eqn:E; [|exact FN]. destruct (t_phase x); try exact FN. exact (T t x None (disk st) E).
  - exact FN.
  - exact FN.
Qed.
Lemma acc_step : forall st ev, fresh_next st -> all_accounted st ->
  (never_torn st \/ no_failure ev) -> all_accounted (step h cs st ev).
Proof.
  intros st ev FN A NF.
  assert (Up : forall g v f, updk g (Some v) (disk st) f <> None -> disk st f <> None \/ f = g).
  { intros g v f H. unfold updk in H. destruct (keqb f g) eqn:E; [right; apply keqb_eq; exact E|left; exact H]. }
  destruct ev as [i q s e|i net io|k|f|t|t|t n|t|t|t|q d|q]; cbn [step].
  - destruct (readers st i); [exact A|]. apply (acc_same st); auto.
  - destruct (readers st i) as [r|]; [|exact A]. unfold read_step.
    destruct (r_pc r) as [|g| |cd|todo cd| | |]; try exact A.
    + destruct (cache st (r_path r, r_chunk r)) as [[|]|]; apply (acc_same st); auto.
    + destruct (disk st g) as [[]|]; apply (acc_same st); auto.
    + destruct (if net then _ else _) as [d|]; [|apply (acc_same st); auto].
      apply (acc_same (cache_chunk_data st (r_path r, r_chunk r) d)); auto. apply acc_store; assumption.
    + destruct (_ && _); [|apply (acc_same st); auto]. destruct (if net then _ else _); apply (acc_same st); auto.
    + destruct todo as [|[k' d] todo]; [apply (acc_same st); auto|].
      apply (acc_same (cache_chunk_data st k' d)); auto. apply acc_store; assumption.
  - apply acc_drop, A.
  - destruct (existsb (keqb f) (rem st)); [|exact A]. intros g H. cbn in H. unfold updk in H. destruct (keqb g f) eqn:E; [congruence|].
    assert (N : g <> f) by (intros ->; rewrite (proj2 (keqb_eq f f) eq_refl) in E; discriminate).
    destruct (A g H) as [C|[T|R]]; [left; exact C|right; left; exact T|right; right]. cbn. apply remove_one_in; assumption.
  - destruct (tasks st t) as [x|] eqn:E; [|exact A]. destruct (t_phase x); try exact A.
    destruct (disk st (file_of h (t_key x))); eapply acc_task; eauto; cbn; auto; discriminate.
  - destruct (tasks st t) as [x|] eqn:E; [|exact A]. destruct (t_phase x); try exact A.
    destruct (disk st (file_of h (t_key x))); eapply acc_task; eauto; cbn; auto; discriminate.
  - destruct (tasks st t) as [x|] eqn:E; [|exact A]. destruct (t_phase x); try exact A.
    destruct (disk st (file_of h (t_key x))) as [[o d]|]; eapply acc_task; eauto; cbn; auto; try discriminate.
    destruct (Nat.eqb o t); auto. intros f. apply Up.
  - destruct (tasks st t) as [x|] eqn:E; [|exact A]. destruct (t_phase x) as [|[|]|]; try exact A.
    eapply acc_task; eauto; cbn; auto; discriminate.
  - destruct (tasks st t) as [x|] eqn:E; [|exact A]. destruct NF as [NT|NF]; [|contradiction].
    specialize (NT t x E).
    assert (G : t_phase x = Queued -> all_accounted (set_task st t None (disk st))).
    { intros Q f H. cbn in H. destruct (A f H) as [C|[(t' & y & T1 & T2 & T3)|R]]; [left; exact C| |right; right; exact R].
      right; left. exists t', y. cbn. rewrite upd_ne; [auto|]. intros ->. rewrite E in T1. injection T1 as <-. contradiction. }
    destruct (t_phase x); try exact A; [|contradiction]. apply acc_drop. apply G. reflexivity.
  - destruct (tasks st t) as [x|] eqn:E; [|exact A]. destruct (t_phase x) eqn:P; try exact A.
    intros f H. cbn in H.
    destruct (A f H) as [(k' & n & C)|[(t' & y & T1 & T2 & T3)|R]].
    + destruct (keqb k' (t_key x)) eqn:EK.
      * apply keqb_eq in EK. subst k'. right; right. cbn. rewrite C. apply in_or_app. right. left. reflexivity.
      * left. exists k', n. cbn. unfold updk. rewrite EK. exact C.
    + destruct (Nat.eq_dec t' t) as [->|N].
      * rewrite E in T1. injection T1 as <-. left. exists (t_key x), (length (t_data x)). cbn. rewrite updk_eq, T2. reflexivity.
      * right; left. exists t', y. cbn. rewrite upd_ne; auto.
    + right; right. cbn. apply in_or_app. left. exact R.
  - apply (acc_same st); auto.
  - apply (acc_same st); auto.
Qed.
Lemma torn_step : forall st ev, never_torn st -> whole_write ev -> never_torn (step h cs st ev).
Proof.
  intros st ev NT W.
  assert (C : forall k d, never_torn (cache_chunk_data st k d)).
  { intros k d. unfold cache_chunk_data. destruct (cache st k); [exact NT|]. intros t x H. cbn in H. apply upd_cases in H.
    destruct H as [[_ H]|[_ H]]; [injection H as <-; exact Logic.I|exact (NT t x H)]. }
  assert (T : forall t y dk, match y with Some z => t_phase z = Ready | None => True end -> never_torn (set_task st t y dk)).
  { intros t y dk Hy t' x H. cbn in H. apply upd_cases in H. destruct H as [[_ H]|[_ H]]; [|exact (NT t' x H)].
    subst y. rewrite Hy. exact Logic.I. }
  destruct ev as [i q s e|i net io|k|f|t|t|t n|t|t|t|q d|q]; cbn [step]; try contradiction.
  - destruct (readers st i); exact NT.
  - destruct (readers st i) as [r|]; [|exact NT]. unfold read_step.
    destruct (r_pc r) as [|g| |cd|todo cd| | |]; try exact NT.
    + destruct (cache st _) as [[|]|]; exact NT.
    + destruct (disk st g) as [[]|]; exact NT.
    + destruct (if net then _ else _); [apply C|exact NT].
    + destruct (_ && _); [|exact NT]. destruct (if net then _ else _); exact NT.
    + destruct todo as [|[]]; [exact NT|apply C].
  - exact NT.
  - destruct (existsb _ _); exact NT.
  - destruct (tasks st t) as [x|] eqn:E; [|exact NT]. destruct (t_phase x); try exact NT. destruct (disk st (file_of h (t_key x))); apply T; reflexivity.
  - destruct (tasks st t) as [x|] eqn:E; [|exact NT]. destruct (t_phase x) as [|[|]|]; try exact NT. apply T; reflexivity.
  - destruct (tasks st t) as [x|] eqn:E; [|exact NT]. destruct (t_phase x); try exact NT; exact (T t None (disk st) Logic.I).
  - destruct (tasks st t) as [x|] eqn:E; [|exact NT]. destruct (t_phase x); try exact NT. exact (T t None (disk st) Logic.I).
  - exact NT.
  - exact NT.
Qed.
Lemma acc_run : forall evs st, fresh_next st -> all_accounted st ->
  (never_torn st /\ Forall whole_write evs) \/ Forall no_failure evs -> all_accounted (run h cs st evs).
Proof.
  induction evs as [|ev evs IH]; intros st FN A H; [exact A|].
  change (run h cs st (ev :: evs)) with (run h cs (step h cs st ev) evs).
  destruct H as [[NT W]|F].
  - inversion W; subst. apply IH; [apply fresh_step, FN|apply acc_step; auto|]. left. split; [apply torn_step; assumption|assumption].
  - inversion F; subst. apply IH; [apply fresh_step, FN|apply acc_step; auto|]. right. assumption.
Qed.
Lemma acc_init : forall o, fresh_next (init o) /\ all_accounted (init o) /\ never_torn (init o).
Proof.
  intros o. split; [intros t _; reflexivity|]. split; [intros f H; cbn in H; congruence|]. intros t x H. discriminate.
Qed.
End Orphans.

(* ---- sizes ---- *)
Section Sizes.
Variable h : nat -> nat.
Variable cs : nat.
Definition small (st : state) : Prop :=
  (forall k v, cache st k = Some v -> size v <= cs) /\ (forall t x, tasks st t = Some x -> length (t_data x) <= cs) /\
  (forall i r, readers st i = Some r -> match r_pc r with PStore todo _ => Forall (fun kd : key * list nat => length (snd kd) <= cs) todo | _ => True end).

Lemma split_small : forall p l d, Forall (fun kd : key * list nat => length (snd kd) <= cs) (split_batch cs p l d).
Proof.
  intros p l. induction l as [|c l IH]; intros d; cbn [split_batch]; [constructor|].
  destruct (Nat.ltb_spec (length d) cs); constructor; auto; cbn [snd]; [lia|]. rewrite firstn_length. lia.
Qed.
Lemma small_set : forall st i r, small st ->
  match r_pc r with PStore todo _ => Forall (fun kd : key * list nat => length (snd kd) <= cs) todo | _ => True end ->
  small (set_reader st i r).
Proof.
  intros st i r (S1 & S2 & S3) H. split; [exact S1|]. split; [exact S2|]. intros j x Hj. cbn in Hj. apply upd_cases in Hj.
  destruct Hj as [[_ E]|[_ E]]; [injection E as <-; exact H|exact (S3 j x E)].
Qed.
Lemma small_store : forall st k d, small st -> length d <= cs -> small (cache_chunk_data st k d).
Proof.
  intros st k d (S1 & S2 & S3) H. unfold cache_chunk_data. destruct (cache st k); [repeat split; assumption|].
  split; [|split; [|exact S3]].
  - intros k' v Hv. cbn in Hv. apply updk_cases in Hv. destruct Hv as [[_ E]|[_ E]]; [injection E as <-; exact H|exact (S1 k' v E)].
  - intros t x Hx. cbn in Hx. apply upd_cases in Hx. destruct Hx as [[_ E]|[_ E]]; [injection E as <-; exact H|exact (S2 t x E)].
Qed.
Lemma small_drop : forall st k, small st -> small (drop_entry st k).
Proof.
  intros st k (S1 & S2 & S3). split; [|split; [exact S2|exact S3]].
  intros k' v Hv. cbn in Hv. apply updk_cases in Hv. destruct Hv as [[_ E]|[_ E]]; [discriminate|exact (S1 k' v E)].
Qed.
Lemma small_task : forall st t x y dk, small st -> tasks st t = Some x ->
  match y with Some z => t_data z = t_data x | None => True end -> small (set_task st t y dk).
Proof.
  intros st t x y dk (S1 & S2 & S3) T Y. split; [exact S1|]. split; [|exact S3].
  intros t' z Hz. cbn in Hz. apply upd_cases in Hz. destruct Hz as [[_ E]|[_ E]]; [|exact (S2 t' z E)].
  subst y. rewrite Y. exact (S2 t x T).
Qed.
Lemma small_step : forall st ev, small st -> small (step h cs st ev).
Proof.
  intros st ev S.
  assert (F : forall r cd, match r_pc (finish_chunk cs r cd) with PStore todo _ => Forall (fun kd : key * list nat => length (snd kd) <= cs) todo | _ => True end).
  { intros r cd. unfold finish_chunk. destruct (Nat.ltb _ _); cbn; [trivial|]. unfold trim. destruct (Nat.ltb _ _); trivial. }
  destruct ev as [i q s e|i net io|k|f|t|t|t n|t|t|t|q d|q]; cbn [step].
  - destruct (readers st i); [exact S|]. apply small_set; [exact S|]. unfold start_read.
    destruct (_ || _); [exact Logic.I|]. destruct (Nat.ltb _ _); exact Logic.I.
  - destruct (readers st i) as [r|] eqn:Er; [|exact S]. unfold read_step.
    pose proof (proj2 (proj2 S) i r Er) as Sr.
    destruct (r_pc r) as [|g| |cd|todo cd| | |] eqn:E; try exact S.
    + destruct (cache st (r_path r, r_chunk r)) as [[|]|]; apply small_set; cbn; auto.
    + destruct (disk st g) as [[]|]; [destruct io|]; apply small_set; cbn; auto.
    + destruct (if net then _ else _) as [d|] eqn:G; [|apply small_set; cbn; auto].
      apply small_set; [|cbn; auto]. apply small_store; [exact S|].
      destruct net; [|discriminate]. unfold inner_get in G. destruct (objs st (r_path r)); [|discriminate].
      destruct (Nat.ltb _ _); [|discriminate]. injection G as <-. rewrite firstn_length. lia.
    + destruct (_ && _); [|apply small_set; [exact S|apply F]].
      destruct (if net then _ else _) as [d|]; apply small_set; cbn; auto. apply split_small.
    + destruct todo as [|[k' d] todo]; [apply small_set; [exact S|apply F]|].
      inversion Sr; subst. apply small_set; [apply small_store; [exact S|assumption]|cbn; assumption].
  - apply small_drop, S.
  - destruct (existsb _ _); exact S.
  - destruct (tasks st t) as [x|] eqn:E; [|exact S]. destruct (t_phase x); try exact S.
    destruct (disk st (file_of h (t_key x))); apply (small_task st t x); auto.
  - destruct (tasks st t) as [x|] eqn:E; [|exact S]. destruct (t_phase x); try exact S.
    destruct (disk st (file_of h (t_key x))); apply (small_task st t x); auto.
  - destruct (tasks st t) as [x|] eqn:E; [|exact S]. destruct (t_phase x); try exact S.
    destruct (disk st (file_of h (t_key x))) as [[o d]|]; apply (small_task st t x); auto.
  - destruct (tasks st t) as [x|] eqn:E; [|exact S]. destruct (t_phase x) as [|[|]|]; try exact S. apply (small_task st t x); auto.
  - destruct (tasks st t) as [x|] eqn:E; [|exact S].
    destruct (t_phase x); try exact S; apply small_drop, (small_task st t x None); auto.
  - destruct (tasks st t) as [x|] eqn:E; [|exact S]. destruct (t_phase x); try exact S.
    pose proof (proj1 (proj2 S) t x E) as L.
    destruct (small_drop _ (t_key x) (small_task st t x None (disk st) S E Logic.I)) as (A & B & C).
    split; [|split; [exact B|exact C]]. intros k v Hv. cbn in Hv. apply updk_cases in Hv.
    destruct Hv as [[_ Ev]|[N Ev]]; [injection Ev as <-; exact L|].
    rewrite updk_ne in Ev by exact N. exact (proj1 S k v Ev).
  - exact S.
  - exact S.
Qed.
Lemma small_run : forall evs st, small st -> small (run h cs st evs).
Proof. induction evs as [|ev evs IH]; intros st S; [exact S|]. apply IH, small_step, S. Qed.
Lemma small_init : forall o, small (init o).
Proof. intros o. repeat split; intros; discriminate. Qed.
End Sizes.

(* ---- an entry without its file ---- *)
Section Dangling.
Variable h : nat -> nat.
Hypothesis h_inj : forall a b, h a = h b -> a = b.
Variable cs : nat.
Variable k : key.
Variable n : nat.

Definition dangling (st : state) : Prop :=
  cache st k = Some (File (file_of h k) n) /\ disk st (file_of h k) = None /\ forall t x, tasks st t = Some x -> t_key x <> k.

Lemma file_inj : forall a, file_of h a = file_of h k -> a = k.
Proof.
  intros [a1 a2] H. destruct k as [k1 k2]. unfold file_of in H; cbn in H. injection H as H1 H2. apply h_inj in H1. congruence.
Qed.
Lemma dangling_step : forall st ev, ev <> EEvict k -> dangling st -> dangling (step h cs st ev).
Proof.
  intros st ev N (D1 & D2 & D3).
  assert (C : forall k' d, dangling (cache_chunk_data st k' d)).
  { intros k' d. unfold cache_chunk_data. destruct (cache st k') eqn:E; [repeat split; assumption|].
    assert (k' <> k) by congruence.
    split; [cbn; rewrite updk_ne; auto|]. split; [exact D2|]. intros t x H1. cbn in H1. apply upd_cases in H1.
    destruct H1 as [[_ X]|[_ X]]; [injection X as <-; exact H|exact (D3 t x X)]. }
  assert (S : forall st' i r, dangling st' -> dangling (set_reader st' i r)) by (intros st' i r X; exact X).
  assert (D : dangling st) by (repeat split; assumption).
  assert (T : forall t x y dk, tasks st t = Some x -> match y with Some z => t_key z = t_key x | None => True end ->
            dk (file_of h k) = None -> dangling (set_task st t y dk)).
  { intros t x y dk E Y Dk. split; [exact D1|]. split; [exact Dk|]. intros t' z H. cbn in H. apply upd_cases in H.
    destruct H as [[_ X]|[_ X]]; [subst y; rewrite Y; exact (D3 t x E)|exact (D3 t' z X)]. }
  assert (U : forall t x v, tasks st t = Some x -> updk (file_of h (t_key x)) v (disk st) (file_of h k) = None).
  { intros t x v E. rewrite updk_ne; [exact D2|]. intros F. symmetry in F. apply file_inj in F. exact (D3 t x E F). }
  assert (Dr : forall st' k', dangling st' -> k' <> k -> dangling (drop_entry st' k')).
  { intros st' k' (A1 & A2 & A3) NK. split; [cbn; rewrite updk_ne; auto|]. split; [exact A2|exact A3]. }
  destruct ev as [i q s e|i net io|k'|f|t|t|t m|t|t|t|q d|q]; cbn [step].
  - destruct (readers st i); [exact D|]. apply S, D.
  - destruct (readers st i) as [r|]; [|exact D]. unfold read_step.
    destruct (r_pc r) as [|g| |cd|todo cd| | |]; try exact D.
    + destruct (cache st (r_path r, r_chunk r)) as [[|]|]; apply S, D.
    + destruct (disk st g) as [[]|]; apply S, D.
    + destruct (if net then _ else _); apply S; [apply C|exact D].
    + destruct (_ && _); [|apply S, D]. destruct (if net then _ else _); apply S, D.
    + destruct todo as [|[k' d] todo]; apply S; [exact D|apply C].
  - apply Dr; [exact D|congruence].
  - destruct (existsb _ _); [|exact D]. split; [exact D1|]. split; [|exact D3]. cbn. unfold updk. destruct (keqb _ _); auto.
  - destruct (tasks st t) as [x|] eqn:E; [|exact D]. destruct (t_phase x); try exact D.
    destruct (disk st (file_of h (t_key x))); apply (T t x); auto. apply (U t x). exact E.
  - destruct (tasks st t) as [x|] eqn:E; [|exact D]. destruct (t_phase x); try exact D.
    destruct (disk st (file_of h (t_key x))); apply (T t x); auto. apply (U t x). exact E.
  - destruct (tasks st t) as [x|] eqn:E; [|exact D]. destruct (t_phase x); try exact D.
    destruct (disk st (file_of h (t_key x))) as [[o d]|]; apply (T t x); auto. destruct (Nat.eqb o t); [apply (U t x); exact E|exact D2].
  - destruct (tasks st t) as [x|] eqn:E; [|exact D]. destruct (t_phase x) as [|[|]|]; try exact D. apply (T t x); auto.
  - destruct (tasks st t) as [x|] eqn:E; [|exact D]. pose proof (D3 t x E) as NK.
    destruct (t_phase x); try exact D; apply Dr; auto; apply (T t x None); auto.
  - destruct (tasks st t) as [x|] eqn:E; [|exact D]. pose proof (D3 t x E) as NK. destruct (t_phase x); try exact D.
    destruct (Dr _ (t_key x) (T t x None (disk st) E Logic.I D2) NK) as (A1 & A2 & A3).
    split; [cbn; rewrite updk_ne; [|congruence]; exact A1|]. split; [exact A2|exact A3].
  - exact D.
  - exact D.
Qed.
Lemma dangling_run : forall evs st, ~ In (EEvict k) evs -> dangling st -> dangling (run h cs st evs).
Proof.
  induction evs as [|ev evs IH]; intros st N D; [exact D|]. apply IH; [intros X; apply N; right; exact X|].
  apply dangling_step; [intros ->; apply N; left; reflexivity|exact D].
Qed.
End Dangling.

(* ---- a leftover file ---- *)
Section Leftover.
Variable h : nat -> nat.
Hypothesis h_inj : forall a b, h a = h b -> a = b.
Variable cs p : nat.
Variable f : fname.
Hypothesis f_p : fst f = h p.

Definition forgotten (st : state) (v : nat * list nat) : Prop :=
  disk st f = Some v /\ ~ In f (rem st) /\ (forall k n, cache st k = Some (File f n) -> False) /\
  (forall t x, tasks st t = Some x -> fst (t_key x) <> p) /\ (forall i r, readers st i = Some r -> r_path r <> p \/ mu r = 0).
Definition not_read (ev : event) : Prop := match ev with ERead _ q _ _ => q <> p | _ => True end.

Lemma other_file : forall k, fst k <> p -> file_of h k <> f.
Proof. intros k H E. apply H. apply h_inj. rewrite <- f_p, <- E. reflexivity. Qed.
Lemma remove_one_incl : forall g x l, In x (remove_one g l) -> In x l.
Proof.
  intros g x l. induction l as [|y l IH]; intros H; [exact H|]. cbn [remove_one] in H. destruct (keqb g y); [right; exact H|].
  destruct H as [H|H]; [left; exact H|right; exact (IH H)].
Qed.
Lemma forgotten_set : forall st v i r, forgotten st v -> r_path r <> p -> forgotten (set_reader st i r) v.
Proof.
  intros st v i r (F1 & F2 & F3 & F4 & F5) H. split; [exact F1|]. split; [exact F2|]. split; [exact F3|]. split; [exact F4|].
  intros j x Hj. cbn in Hj. apply upd_cases in Hj. destruct Hj as [[_ E]|[_ E]]; [injection E as <-; left; exact H|exact (F5 j x E)].
Qed.
Lemma forgotten_store : forall st v k d, forgotten st v -> fst k <> p -> forgotten (cache_chunk_data st k d) v.
Proof.
  intros st v k d F H. unfold cache_chunk_data. destruct (cache st k); [exact F|]. destruct F as (F1 & F2 & F3 & F4 & F5).
  split; [exact F1|]. split; [exact F2|]. split; [|split; [|exact F5]].
  - intros k' n Hk. cbn in Hk. apply updk_cases in Hk. destruct Hk as [[_ E]|[_ E]]; [discriminate|exact (F3 k' n E)].
  - intros t x Hx. cbn in Hx. apply upd_cases in Hx. destruct Hx as [[_ E]|[_ E]]; [injection E as <-; exact H|exact (F4 t x E)].
Qed.
Lemma forgotten_drop : forall st v k, forgotten st v -> forgotten (drop_entry st k) v.
Proof.
  intros st v k (F1 & F2 & F3 & F4 & F5). split; [exact F1|]. split; [|split; [|split; [exact F4|exact F5]]].
  - cbn. intros H. apply in_app_or in H. destruct H as [H|H]; [exact (F2 H)|].
    destruct (cache st k) as [[d|g n]|] eqn:E; cbn in H; try contradiction. destruct H as [->|[]]. exact (F3 k n E).
  - intros k' n Hk. cbn in Hk. apply updk_cases in Hk. destruct Hk as [[_ E]|[_ E]]; [discriminate|exact (F3 k' n E)].
Qed.
Lemma forgotten_task : forall st v t x y dk, forgotten st v -> tasks st t = Some x ->
  match y with Some z => t_key z = t_key x | None => True end -> dk f = Some v -> forgotten (set_task st t y dk) v.
Proof.
  intros st v t x y dk (F1 & F2 & F3 & F4 & F5) T Y Dk. split; [exact Dk|]. split; [exact F2|]. split; [exact F3|]. split; [|exact F5].
  intros t' z Hz. cbn in Hz. apply upd_cases in Hz. destruct Hz as [[_ E]|[_ E]]; [subst y; rewrite Y; exact (F4 t x T)|exact (F4 t' z E)].
Qed.
Lemma forgotten_step : forall st v ev, own_todo st -> not_read ev -> forgotten st v -> forgotten (step h cs st ev) v.
Proof.
  intros st v ev O N F. pose proof F as (F1 & F2 & F3 & F4 & F5).
  assert (U : forall t x w, tasks st t = Some x -> updk (file_of h (t_key x)) w (disk st) f = Some v).
  { intros t x w E. rewrite updk_ne; [exact F1|]. intros X. exact (other_file _ (F4 t x E) (eq_sym X)). }
  destruct ev as [i q s e|i net io|k'|g|t|t|t m|t|t|t|q d|q]; cbn [step].
  - destruct (readers st i); [exact F|]. apply forgotten_set; [exact F|]. unfold start_read.
    destruct (_ || _); [exact N|]. destruct (Nat.ltb _ _); exact N.
  - destruct (readers st i) as [r|] eqn:Er; [|exact F]. unfold read_step.
    destruct (F5 i r Er) as [NP|MZ];
      [|destruct (mu_zero r MZ) as [[d P]|[P|P]]; rewrite P; exact F].
    pose proof (O i r Er) as Or.
    assert (Fi : forall cd, r_path (finish_chunk cs r cd) <> p).
    { intros cd. unfold finish_chunk. destruct (Nat.ltb _ _); exact NP. }
    destruct (r_pc r) as [|g| |cd|todo cd| | |]; try exact F.
    + destruct (cache st (r_path r, r_chunk r)) as [[|]|]; apply forgotten_set; auto.
    + destruct (disk st g) as [[]|]; apply forgotten_set; auto.
    + destruct (if net then _ else _); apply forgotten_set; auto. apply forgotten_store; auto.
    + destruct (_ && _); [|apply forgotten_set; auto]. destruct (if net then _ else _); apply forgotten_set; auto.
    + destruct todo as [|[k' d] todo]; apply forgotten_set; auto. apply forgotten_store; auto.
      inversion Or as [|? ? X Y]. cbn in X. rewrite X. exact NP.
  - apply forgotten_drop, F.
  - destruct (existsb (keqb g) (rem st)) eqn:E; [|exact F].
    assert (g <> f).
    { intros ->. apply existsb_exists in E. destruct E as (x & X1 & X2). apply keqb_eq in X2. subst x. exact (F2 X1). }
    split; [cbn; rewrite updk_ne; [exact F1|congruence]|]. split; [|split; [exact F3|split; [exact F4|exact F5]]].
    cbn. intros X. apply remove_one_incl in X. exact (F2 X).
  - destruct (tasks st t) as [x|] eqn:E; [|exact F]. destruct (t_phase x); try exact F.
    destruct (disk st (file_of h (t_key x))); apply (forgotten_task st v t x); auto. apply (U t x). exact E.
  - destruct (tasks st t) as [x|] eqn:E; [|exact F]. destruct (t_phase x); try exact F.
    destruct (disk st (file_of h (t_key x))); apply (forgotten_task st v t x); auto. apply (U t x). exact E.
  - destruct (tasks st t) as [x|] eqn:E; [|exact F]. destruct (t_phase x); try exact F.
    destruct (disk st (file_of h (t_key x))) as [[o d]|]; apply (forgotten_task st v t x); auto. destruct (Nat.eqb o t); [apply (U t x); exact E|exact F1].
  - destruct (tasks st t) as [x|] eqn:E; [|exact F]. destruct (t_phase x) as [|[|]|]; try exact F. apply (forgotten_task st v t x); auto.
  - destruct (tasks st t) as [x|] eqn:E; [|exact F].
    destruct (t_phase x); try exact F; apply forgotten_drop; apply (forgotten_task st v t x None); auto.
  - destruct (tasks st t) as [x|] eqn:E; [|exact F]. destruct (t_phase x); try exact F.
    destruct (forgotten_drop _ v (t_key x) (forgotten_task st v t x None (disk st) F E Logic.I F1)) as (A1 & A2 & A3 & A4 & A5).
    split; [exact A1|]. split; [exact A2|]. split; [|split; [exact A4|exact A5]].
    intros k n Hk. cbn in Hk. apply updk_cases in Hk. destruct Hk as [[_ X]|[_ X]].
    + injection X as X _. exact (other_file _ (F4 t x E) X).
    + exact (A3 k n X).
  - exact F.
  - exact F.
Qed.
Lemma forgotten_run : forall evs st v, own_todo st -> Forall not_read evs -> forgotten st v -> forgotten (run h cs st evs) v.
Proof.
  induction evs as [|ev evs IH]; intros st v O N F; [exact F|]. inversion N; subst. apply IH; auto.
  - apply (own_step h h_inj cs), O.
  - apply forgotten_step; auto.
Qed.
End Leftover.

(* ---- evictions in good order leave no entry without its file ---- *)
Section Orderly.
Variable h : nat -> nat.
Hypothesis h_inj : forall a b, h a = h b -> a = b.
Variable cs : nat.

Record tidy (st : state) : Prop := {
  td_rem : rem st = [];
  td_file : forall k f n, cache st k = Some (File f n) -> f = file_of h k /\ disk st f <> None /\ forall t x, tasks st t = Some x -> t_key x <> k;
  td_task : forall t x, tasks st t = Some x ->
      (exists d, cache st (t_key x) = Some (Mem d)) /\ (forall t' x', tasks st t' = Some x' -> t_key x' = t_key x -> t' = t) /\
      match t_phase x with Queued => True | Writing _ => False | Ready => disk st (file_of h (t_key x)) <> None end;
  td_next : forall t, next st <= t -> tasks st t = None }.

Lemma file_inj2 : forall a b, file_of h a = file_of h b -> a = b.
Proof. intros [a1 a2] [b1 b2] H. unfold file_of in H; cbn in H. injection H as H1 H2. apply h_inj in H1. congruence. Qed.
Lemma tidy_set : forall st i r, tidy st -> tidy (set_reader st i r).
Proof. intros st i r [A B C E]. constructor; assumption. Qed.
Lemma tidy_store : forall st k d, tidy st -> tidy (cache_chunk_data st k d).
Proof.
  intros st k d T. unfold cache_chunk_data. destruct (cache st k) eqn:Ek; [exact T|]. destruct T as [A B C E].
  assert (NT : forall t x, tasks st t = Some x -> t_key x <> k).
  { intros t x Hx K. destruct (C t x Hx) as ((d' & X) & _). congruence. }
  constructor; cbn.
  - exact A.
  - intros k' f n H. apply updk_cases in H. destruct H as [[_ H]|[N H]]; [discriminate|].
    destruct (B k' f n H) as (B1 & B2 & B3). split; [exact B1|]. split; [exact B2|]. intros t x Hx. apply upd_cases in Hx.
    destruct Hx as [[_ Hx]|[_ Hx]]; [injection Hx as <-; cbn; congruence|exact (B3 t x Hx)].
  - intros t x Hx. apply upd_cases in Hx. destruct Hx as [[-> Hx]|[Nt Hx]].
    + injection Hx as <-. cbn. split; [exists d; apply updk_eq|]. split; [|exact Logic.I].
      intros t' x' Hx' Ek'. apply upd_cases in Hx'. destruct Hx' as [[-> _]|[_ Hx']]; [reflexivity|]. exfalso. exact (NT t' x' Hx' Ek').
    + destruct (C t x Hx) as ((d' & C1) & C2 & C3). split; [exists d'; rewrite updk_ne; [exact C1|congruence]|]. split; [|exact C3].
      intros t' x' Hx' Ek'. apply upd_cases in Hx'. destruct Hx' as [[-> Hx']|[_ Hx']]; [|exact (C2 t' x' Hx' Ek')].
      injection Hx' as <-. cbn in Ek'. exfalso. exact (NT t x Hx (eq_sym Ek')).
  - intros t H. rewrite upd_ne by lia. apply E. lia.
Qed.
Lemma tidy_step : forall st ev, match ev with EEvict _ | ERemove _ | EOpen _ | EMore _ _ | EClose _ => False | _ => True end ->
  tidy st -> tidy (step h cs st ev).
Proof.
  intros st ev W T. destruct ev as [i q s e|i net io|k'|f|t|t|t m|t|t|t|q d|q]; cbn [step]; try contradiction.
  - destruct (readers st i); [exact T|]. apply tidy_set, T.
  - destruct (readers st i) as [r|]; [|exact T]. unfold read_step.
    destruct (r_pc r) as [|g| |cd|todo cd| | |]; try exact T.
    + destruct (cache st (r_path r, r_chunk r)) as [[|]|]; apply tidy_set, T.
    + destruct (disk st g) as [[]|]; apply tidy_set, T.
    + destruct (if net then _ else _); apply tidy_set; [apply tidy_store|]; exact T.
    + destruct (_ && _); [|apply tidy_set, T]. destruct (if net then _ else _); apply tidy_set, T.
    + destruct todo as [|[k' d] todo]; apply tidy_set; [|apply tidy_store]; exact T.
  - (* EWrite *)
    destruct (tasks st t) as [x|] eqn:Ex; [|exact T]. destruct (t_phase x) eqn:P; try exact T.
    assert (G : forall dk, (forall g, disk st g <> None -> dk g <> None) -> dk (file_of h (t_key x)) <> None ->
              tidy (set_task st t (Some {| t_key := t_key x; t_data := t_data x; t_phase := Ready |}) dk)).
    { intros dk Up Me. destruct T as [A B C E]. constructor; cbn.
      - exact A.
      - intros k f n H. destruct (B k f n H) as (B1 & B2 & B3). split; [exact B1|]. split; [exact (Up f B2)|].
        intros t' x' Hx'. apply upd_cases in Hx'. destruct Hx' as [[_ Hx']|[_ Hx']]; [injection Hx' as <-; exact (B3 t x Ex)|exact (B3 t' x' Hx')].
      - intros t' x' Hx'.
        assert (exists y, tasks st t' = Some y /\ t_key y = t_key x') as (y & Y1 & Y2).
        { apply upd_cases in Hx'. destruct Hx' as [[-> Hx']|[_ Hx']]; [injection Hx' as <-; exists x; auto|exists x'; auto]. }
        destruct (C t' y Y1) as (C1 & C2 & C3). rewrite Y2 in C1, C2, C3. split; [exact C1|]. split.
        + intros t2 x2 H2 K2. apply upd_cases in H2. destruct H2 as [[-> H2]|[_ H2]]; [|exact (C2 t2 x2 H2 K2)].
          injection H2 as <-. cbn in K2. exact (C2 t x Ex K2).
        + apply upd_cases in Hx'. destruct Hx' as [[-> Hx']|[_ Hx']]; [injection Hx' as <-; cbn; exact Me|].
          rewrite Y1 in Hx'. injection Hx' as <-. destruct (t_phase y); auto.
      - intros t' H. rewrite upd_ne; [exact (E t' H)|]. intros ->. rewrite (E t H) in Ex. discriminate. }
    destruct (disk st (file_of h (t_key x))) eqn:Ed.
    + apply G; [auto|]. rewrite Ed. discriminate.
    + apply G; [|rewrite updk_eq; discriminate]. intros g Hg. unfold updk. destruct (keqb _ _); [discriminate|exact Hg].
  - (* EFail *)
    destruct (tasks st t) as [x|] eqn:Ex; [|exact T].
    assert (G : tidy (drop_entry (set_task st t None (disk st)) (t_key x))).
    { destruct T as [A B C E]. destruct (C t x Ex) as ((d & C1) & C2 & _). constructor; cbn.
      - rewrite A, C1. reflexivity.
      - intros k f n H. apply updk_cases in H. destruct H as [[_ H]|[N H]]; [discriminate|].
        destruct (B k f n H) as (B1 & B2 & B3). split; [exact B1|]. split; [exact B2|]. intros t' x' Hx'. apply upd_cases in Hx'.
        destruct Hx' as [[_ Hx']|[_ Hx']]; [discriminate|exact (B3 t' x' Hx')].
      - intros t' x' Hx'. apply upd_cases in Hx'. destruct Hx' as [[_ Hx']|[N Hx']]; [discriminate|].
        destruct (C t' x' Hx') as ((d' & D1) & D2 & D3). split; [|split; [|exact D3]].
        + exists d'. rewrite updk_ne; [exact D1|]. intros K. apply N. exact (C2 t' x' Hx' K).
        + intros t2 x2 H2 K2. apply upd_cases in H2. destruct H2 as [[_ H2]|[_ H2]]; [discriminate|exact (D2 t2 x2 H2 K2)].
      - intros t' H. unfold upd. destruct (Nat.eqb t' t); [reflexivity|exact (E t' H)]. }
    destruct (t_phase x); [exact G|exact G|exact T].
  - (* EInsert *)
    destruct (tasks st t) as [x|] eqn:Ex; [|exact T]. destruct (t_phase x) eqn:P; try exact T.
    destruct T as [A B C E]. destruct (C t x Ex) as ((d & C1) & C2 & C3). rewrite P in C3. constructor; cbn.
    + rewrite A, C1. reflexivity.
    + intros k f n H. apply updk_cases in H. destruct H as [[-> H]|[N H]].
      * injection H as <- <-. split; [reflexivity|]. split; [exact C3|]. intros t' x' Hx' K. apply upd_cases in Hx'.
        destruct Hx' as [[_ Hx']|[N Hx']]; [discriminate|]. exact (N (C2 t' x' Hx' K)).
      * rewrite updk_ne in H by exact N. destruct (B k f n H) as (B1 & B2 & B3). split; [exact B1|]. split; [exact B2|].
        intros t' x' Hx'. apply upd_cases in Hx'. destruct Hx' as [[_ Hx']|[_ Hx']]; [discriminate|exact (B3 t' x' Hx')].
    + intros t' x' Hx'. apply upd_cases in Hx'. destruct Hx' as [[_ Hx']|[N Hx']]; [discriminate|].
      destruct (C t' x' Hx') as ((d' & D1) & D2 & D3). split; [|split; [|exact D3]].
      * exists d'. assert (t_key x' <> t_key x) by (intros K; exact (N (C2 t' x' Hx' K))). rewrite !updk_ne by assumption. exact D1.
      * intros t2 x2 H2 K2. apply upd_cases in H2. destruct H2 as [[_ H2]|[_ H2]]; [discriminate|exact (D2 t2 x2 H2 K2)].
    + intros t' H. unfold upd. destruct (Nat.eqb t' t); [reflexivity|exact (E t' H)].
  - destruct T as [A B C E]. constructor; assumption.
  - destruct T as [A B C E]. constructor; assumption.
Qed.
Lemma tidy_evict : forall st k f n, tidy st -> cache st k = Some (File f n) ->
  tidy (step h cs (step h cs st (EEvict k)) (ERemove f)).
Proof.
  intros st k f n [A B C E] H. destruct (B k f n H) as (B1 & B2 & B3). cbn [step drop_entry rem]. rewrite A, H. cbn [evicted app existsb remove_one].
  rewrite (proj2 (keqb_eq f f) eq_refl). cbn [orb]. constructor; cbn.
  - rewrite ?(proj2 (keqb_eq f f) eq_refl). reflexivity.
  - intros k' f' n' H'. apply updk_cases in H'. destruct H' as [[_ H']|[N H']]; [discriminate|].
    destruct (B k' f' n' H') as (D1 & D2 & D3). split; [exact D1|]. split; [|exact D3].
    rewrite updk_ne; [exact D2|]. intros X. apply N. apply file_inj2. congruence.
  - intros t x Hx. destruct (C t x Hx) as ((d & C1) & C2 & C3). pose proof (B3 t x Hx) as N. split; [|split; [exact C2|]].
    + exists d. rewrite updk_ne; [exact C1|exact N].
    + destruct (t_phase x); auto. rewrite updk_ne; [exact C3|]. rewrite B1. intros X. apply N. exact (file_inj2 _ _ X).
  - exact E.
Qed.
Lemma tidy_run : forall st evs, orderly h cs st evs -> tidy st -> tidy (run h cs st evs).
Proof.
  intros st evs O. induction O as [st|st ev evs W O IH|st k f n evs H O IH]; intros T; [exact T| |].
  - apply IH, tidy_step; assumption.
  - apply IH, (tidy_evict st k f n); assumption.
Qed.
Lemma tidy_init : forall o, tidy (init o).
Proof. intros o. constructor; cbn; intros; try discriminate; reflexivity. Qed.
End Orderly.

(* an object of exactly one chunk, read once *)
Lemma one_chunk : forall cs D, cs > 0 -> length D = cs ->
  cache (run (fun x => x) cs (init (fun _ => Some D)) (ERead 0 0 0 cs :: repeat (EStep 0 true true) 4)) = updk (0, 0) (Some (Mem D)) (fun _ => None).
Proof.
  intros cs D Hcs LD.
  assert (E0 : 0 / cs = 0) by (apply Nat.div_small; lia).
  assert (E1 : (cs - 1) / cs = 0) by (apply Nat.div_small; lia).
  set (mk := fun b acc q => {| r_path := 0; r_start := 0; r_end := cs; r_chunk := 0; r_last := 0; r_batch := b; r_acc := acc; r_pc := q |}).
  assert (S0 : start_read cs 0 0 cs = mk [] [] PLook).
  { unfold start_read. destruct (Nat.ltb_spec cs 0); [lia|]. destruct (Nat.eqb_spec cs 0); [lia|]. cbn [orb]. rewrite E0, E1. reflexivity. }
  set (st0 := init (fun _ => Some D)).
  set (st1 := set_reader st0 0 (mk [] [] PLook)).
  set (st2 := set_reader st1 0 (mk [0] [] (PGot None))).
  set (st3 := set_reader st2 0 (mk [] D (PStore [((0, 0), D)] None))).
  set (st4 := set_reader (cache_chunk_data st3 (0, 0) D) 0 (mk [] D (PStore [] None))).
  assert (A1 : step (fun x => x) cs st0 (ERead 0 0 0 cs) = st1) by (cbn [step st0 init readers]; rewrite S0; reflexivity).
  assert (A2 : step (fun x => x) cs st1 (EStep 0 true true) = st2) by reflexivity.
  assert (G : inner_get (fun _ => Some D) 0 (0 * cs) ((0 + 1) * cs) = Some D).
  { unfold inner_get. rewrite Nat.mul_0_l, LD. destruct (Nat.ltb_spec 0 cs); [|lia]. cbn [skipn].
    rewrite Nat.sub_0_r, Nat.add_0_l, Nat.mul_1_l, <- LD, firstn_all. reflexivity. }
  assert (FD : firstn cs D = D) by (rewrite <- LD; apply firstn_all).
  assert (SB : split_batch cs 0 [0] D = [((0, 0), D)]).
  { cbn [split_batch]. rewrite LD. destruct (Nat.ltb_spec cs cs); [lia|]. rewrite FD. reflexivity. }
  assert (A3 : step (fun x => x) cs st2 (EStep 0 true true) = st3).
  { transitivity (match inner_get (fun _ => Some D) 0 (0 * cs) ((0 + 1) * cs) with
       | None => set_reader st2 0 (at_pc (mk [0] [] (PGot None)) PErr)
       | Some d => set_reader st2 0 (mk [] ([] ++ d) (PStore (split_batch cs 0 [0] d) None))
       end); [reflexivity|].
    rewrite G, SB. reflexivity. }
  assert (A4 : step (fun x => x) cs st3 (EStep 0 true true) = st4) by reflexivity.
  unfold run. cbn [fold_left repeat]. rewrite A1, A2, A3, A4. reflexivity.
Qed.
