(* Proofs for MeterProps.v. *)
From Coq Require Import Ascii String List Arith Bool Lia.
From Verif Require Import CacheModel CacheProofs FetchModel FetchProofs MeterModel MeterSpec.
Import ListNotations.

(* ---- sums ---- *)
Lemma sum_ext : forall (f g : nat -> nat) l, (forall i, In i l -> f i = g i) -> sum (map f l) = sum (map g l).
Proof. intros f g l. induction l as [|x l IH]; intros H; [reflexivity|]. cbn. fold (sum (map f l)) (sum (map g l)).
  rewrite (H x (or_introl eq_refl)), IH; [reflexivity|]. intros i Hi. apply H. right. exact Hi. Qed.
Lemma sum_change : forall (f g : nat -> nat) i l, NoDup l -> In i l -> (forall j, j <> i -> g j = f j) ->
  sum (map g l) + f i = sum (map f l) + g i.
Proof.
  intros f g i l ND. induction ND as [|x l NI ND IH]; intros H E; [destruct H|]. cbn. fold (sum (map f l)) (sum (map g l)).
  destruct H as [->|H].
  - rewrite (sum_ext g f l); [lia|]. intros j Hj. apply E. intros ->. exact (NI Hj).
  - specialize (IH H E). rewrite (E x); [lia|]. intros ->. exact (NI H).
Qed.
Lemma sum_same : forall (f g : nat -> nat) i l, ~ In i l -> (forall j, j <> i -> g j = f j) -> sum (map g l) = sum (map f l).
Proof. intros f g i l N E. apply sum_ext. intros j Hj. apply E. intros ->. exact (N Hj). Qed.

(* ---- histories that are split ---- *)
Lemma counter_ext : forall m m' h cs evs st, (forall st ev, m cs st ev = m' cs st ev) -> counter m h cs st evs = counter m' h cs st evs.
Proof. intros m m' h cs evs. induction evs as [|ev evs IH]; intros st H; [reflexivity|]. cbn. rewrite H, (IH _ H). reflexivity. Qed.

(* ---- which reader an event moves ---- *)
Definition mover (ev : event) : option nat := match ev with ERead i _ _ _ => Some i | EStep i _ _ => Some i | _ => None end.
Lemma others_stay : forall h cs st ev j, mover ev <> Some j -> readers (step h cs st ev) j = readers st j.
Proof.
  intros h cs st ev j N. destruct ev as [i q s e|i net io|k|f|t|t|t n|t|t|t|q d|q]; cbn [mover] in N; cbn [step].
  - destruct (readers st i); [reflexivity|]. cbn. apply upd_ne. congruence.
  - destruct (readers st i) as [r|]; [|reflexivity]. assert (J : j <> i) by congruence.
    assert (S : forall st' r', readers st' = readers st -> readers (set_reader st' i r') j = readers st j).
    { intros st' r' H. cbn. rewrite upd_ne by exact J. rewrite H. reflexivity. }
    unfold read_step. destruct (r_pc r) as [|g| |cd|todo cd| | |]; try reflexivity.
    + destruct (cache st _) as [[|]|]; apply S; reflexivity.
    + destruct (disk st g) as [[]|]; apply S; reflexivity.
    + destruct (if net then _ else _); apply S; [apply readers_store|reflexivity].
    + destruct (_ && _); [|apply S; reflexivity]. destruct (if net then _ else _); apply S; reflexivity.
    + destruct todo as [|[k d] todo]; apply S; [reflexivity|apply readers_store].
  - reflexivity.
  - destruct (existsb _ _); reflexivity.
  - destruct (tasks st t) as [x|]; [|reflexivity]. destruct (t_phase x); try reflexivity. destruct (disk st _); reflexivity.
  - destruct (tasks st t) as [x|]; [|reflexivity]. destruct (t_phase x); try reflexivity. destruct (disk st _); reflexivity.
  - destruct (tasks st t) as [x|]; [|reflexivity]. destruct (t_phase x); try reflexivity. destruct (disk st _) as [[]|]; reflexivity.
  - destruct (tasks st t) as [x|]; [|reflexivity]. destruct (t_phase x) as [|[|]|]; reflexivity.
  - destruct (tasks st t) as [x|]; [|reflexivity]. destruct (t_phase x); reflexivity.
  - destruct (tasks st t) as [x|]; [|reflexivity]. destruct (t_phase x); reflexivity.
  - reflexivity.
  - reflexivity.
Qed.
(* the step of a reader, as a relation between its states *)
Definition moved (cs : nat) (st : state) (net io : bool) (r : reader) : reader :=
  let k := (r_path r, r_chunk r) in
  match r_pc r with
  | PLook =>
      match cache st k with
      | None => {| r_path := r_path r; r_start := r_start r; r_end := r_end r; r_chunk := r_chunk r;
                   r_last := r_last r; r_batch := r_batch r ++ [r_chunk r]; r_acc := r_acc r; r_pc := PGot None |}
      | Some (Mem d) => at_pc r (PGot (Some d))
      | Some (File f _) => at_pc r (PFile f)
      end
  | PFile f =>
      match disk st f with
      | Some (_, d) => at_pc r (if io then PGot (Some d) else PRefetch)
      | None => at_pc r PRefetch
      end
  | PRefetch =>
      match response st net (r_path r, r_chunk r * cs, (r_chunk r + 1) * cs) with
      | None => at_pc r PErr
      | Some d => at_pc r (PGot (Some d))
      end
  | PGot cd =>
      match read_request cs r with
      | Some q =>
        match response st net q with
        | None => at_pc r PErr
        | Some d => {| r_path := r_path r; r_start := r_start r; r_end := r_end r; r_chunk := r_chunk r; r_last := r_last r;
                       r_batch := []; r_acc := r_acc r ++ d; r_pc := PStore (split_batch cs (r_path r) (r_batch r) d) cd |}
        end
      | None => finish_chunk cs r cd
      end
  | PStore [] cd => finish_chunk cs r cd
  | PStore (_ :: todo) cd => at_pc r (PStore todo cd)
  | PDone _ | PErr | PPanic => r
  end.
Lemma reader_moves : forall h cs st i r net io, readers st i = Some r ->
  readers (step h cs st (EStep i net io)) i = Some (moved cs st net io r).
Proof.
  intros h cs st i r net io E. cbn [step]. rewrite E. unfold read_step, moved, response, read_request.
  destruct (r_pc r) as [|g| |cd|todo cd| | |]; try exact E.
  - destruct (cache st _) as [[|]|]; cbn; apply upd_eq.
  - destruct (disk st g) as [[]|]; cbn; apply upd_eq.
  - destruct (if net then _ else _); cbn; apply upd_eq.
  - destruct (_ && _); [|cbn; apply upd_eq]. destruct (if net then _ else _); cbn; apply upd_eq.
  - destruct todo as [|[k d] todo]; cbn; apply upd_eq.
Qed.

(* ---- the bytes that reach a reader ---- *)
Definition m_got (cs : nat) (st : state) (ev : event) : nat := m_memory cs st ev + m_disk cs st ev + m_missed cs st ev.
Lemma counter_got : forall h cs evs st,
  counter m_got h cs st evs = counter m_memory h cs st evs + counter m_disk h cs st evs + counter m_missed h cs st evs.
Proof. intros h cs evs. induction evs as [|ev evs IH]; intros st; [reflexivity|]. cbn [counter]. rewrite IH. unfold m_got. lia. Qed.
Definition gain (cs : nat) (st : state) (net io : bool) (r : reader) : nat :=
  match r_pc r with
  | PLook => match cache st (r_path r, r_chunk r) with Some (Mem d) => length d | _ => 0 end
  | PFile f => match disk st f with Some (_, d) => if io then length d else 0 | None => 0 end
  | _ => match read_request cs r with
         | Some q => match response st net q with Some d => length d | None => 0 end
         | None => 0
         end
  end.
Lemma got_step : forall cs st i net io r, readers st i = Some r -> m_got cs st (EStep i net io) = gain cs st net io r.
Proof.
  intros cs st i net io r E. unfold m_got, m_memory, m_disk, m_missed, gain. rewrite E.
  unfold read_request. destruct (r_pc r); lia.
Qed.
Lemma got_none : forall cs st ev, (forall i net io, ev <> EStep i net io) -> m_got cs st ev = 0.
Proof. intros cs st ev H. destruct ev; try reflexivity. exfalso. eapply H. reflexivity. Qed.

Definition own (cd : option (list nat)) : nat := match cd with Some d => length d | None => 0 end.
(* what a reader holds *)
Definition holds (r : reader) : nat :=
  match r_pc r with
  | PGot cd | PStore _ cd => length (r_acc r) + own cd
  | PDone d => length d
  | PErr | PPanic => 0
  | _ => length (r_acc r)
  end.
Definition held_by (st : state) (i : nat) : nat := match readers st i with Some r => holds r | None => 0 end.
Lemma holds_finish : forall cs r cd, holds (finish_chunk cs r cd) <= length (r_acc r) + own cd.
Proof.
  intros cs r cd. unfold finish_chunk.
  assert (L : length (r_acc r ++ match cd with Some d => d | None => [] end) = length (r_acc r) + own cd).
  { rewrite app_length. destruct cd; reflexivity. }
  destruct (Nat.ltb _ _); unfold holds; cbn [r_pc r_acc]; [lia|].
  unfold trim. destruct (Nat.ltb _ _); [lia|]. rewrite firstn_length, skipn_length. lia.
Qed.
Lemma holds_moved : forall cs st net io r, holds (moved cs st net io r) <= holds r + gain cs st net io r.
Proof.
  intros cs st net io r. unfold moved, gain.
  destruct (r_pc r) as [|g| |cd|todo cd| | |] eqn:E.
  - destruct (cache st _) as [[|]|]; unfold holds; rewrite E; cbn; lia.
  - destruct (disk st g) as [[? d]|]; [destruct io|]; unfold holds; rewrite E; cbn; lia.
  - assert (R : read_request cs r = Some (r_path r, r_chunk r * cs, (r_chunk r + 1) * cs)) by (unfold read_request; rewrite E; reflexivity).
    rewrite R. destruct (response st net _); unfold holds; rewrite E; cbn; lia.
  - destruct (read_request cs r) as [q|] eqn:R.
    + destruct (response st net q); unfold holds; rewrite E; cbn; [rewrite app_length; lia|lia].
    + eapply Nat.le_trans; [apply holds_finish|]. unfold holds. rewrite E. lia.
  - destruct todo as [|[k d] todo].
    + eapply Nat.le_trans; [apply holds_finish|]. unfold holds. rewrite E. lia.
    + unfold holds. rewrite E. cbn. lia.
  - lia.
  - lia.
  - lia.
Qed.
Lemma delivered_step : forall h cs st ev is, NoDup is ->
  sum (map (held_by (step h cs st ev)) is) <= sum (map (held_by st) is) + m_got cs st ev.
Proof.
  intros h cs st ev is ND.
  assert (O : forall j, mover ev <> Some j -> held_by (step h cs st ev) j = held_by st j).
  { intros j Hj. unfold held_by. rewrite (others_stay h cs st ev j Hj). reflexivity. }
  destruct (mover ev) as [i|] eqn:M.
  2:{ rewrite (sum_ext (held_by (step h cs st ev)) (held_by st)); [lia|]. intros j _. apply O. discriminate. }
  destruct (in_dec Nat.eq_dec i is) as [Hi|Hi].
  2:{ rewrite (sum_same (held_by st) (held_by (step h cs st ev)) i); [lia|exact Hi|]. intros j Hj. apply O. congruence. }
  pose proof (sum_change (held_by st) (held_by (step h cs st ev)) i is ND Hi (fun j Hj => O j (fun X => Hj (eq_sym (f_equal (fun o => match o with Some a => a | None => 0 end) X))))) as S.
  assert (P : held_by (step h cs st ev) i <= held_by st i + m_got cs st ev); [|lia].
  destruct ev as [i' q s e|i' net io| | | | | | | | | |]; cbn in M; try discriminate; injection M as ->.
  - unfold held_by. cbn [step]. destruct (readers st i) eqn:E; [rewrite E; lia|]. cbn. rewrite upd_eq.
    unfold start_read, holds. destruct (_ || _); [cbn; lia|]. destruct (Nat.ltb _ _); cbn; lia.
  - destruct (readers st i) as [r|] eqn:E.
    + unfold held_by. rewrite (reader_moves h cs st i r net io E), E, (got_step cs st i net io r E). apply holds_moved.
    + unfold held_by. cbn [step]. rewrite E. rewrite E. lia.
Qed.
Lemma delivered_run : forall h cs evs st is, NoDup is ->
  sum (map (held_by (run h cs st evs)) is) <= sum (map (held_by st) is) + counter m_got h cs st evs.
Proof.
  intros h cs evs. induction evs as [|ev evs IH]; intros st is ND; [cbn; lia|].
  cbn [run fold_left counter]. specialize (IH (step h cs st ev) is ND). pose proof (delivered_step h cs st ev is ND) as D.
  unfold run in IH. lia.
Qed.

(* ---- the files of the cache are no larger than a chunk ---- *)
Section Bounded.
Variable h : nat -> nat.
Variable cs : nat.
Record bounded (st : state) : Prop := {
  bd_file : forall f o d, disk st f = Some (o, d) ->
      length d <= cs /\ o < next st /\
      forall x, tasks st o = Some x -> match t_phase x with Queued => False | Writing rest => length d + length rest <= cs | Ready => True end;
  bd_next : forall t, next st <= t -> tasks st t = None }.
Lemma bounded_same : forall st st', disk st' = disk st -> tasks st' = tasks st -> next st' = next st -> bounded st -> bounded st'.
Proof. intros st st' D T N [A B]. constructor; rewrite ?D, ?T, ?N; assumption. Qed.
Lemma bounded_store : forall st k d, bounded st -> bounded (cache_chunk_data st k d).
Proof.
  intros st k d B. unfold cache_chunk_data. destruct (cache st k); [exact B|]. destruct B as [A N]. constructor; cbn.
  - intros f o d' H. destruct (A f o d' H) as (A1 & A2 & A3). split; [exact A1|]. split; [lia|].
    intros x Hx. rewrite upd_ne in Hx by lia. exact (A3 x Hx).
  - intros t H. rewrite upd_ne by lia. apply N. lia.
Qed.
Lemma bounded_untask : forall st t, bounded st -> bounded (set_task st t None (disk st)).
Proof.
  intros st t [A N]. constructor; cbn.
  - intros f o d H. destruct (A f o d H) as (A1 & A2 & A3). split; [exact A1|]. split; [exact A2|].
    intros x Hx. apply upd_cases in Hx. destruct Hx as [[_ Hx]|[_ Hx]]; [discriminate|exact (A3 x Hx)].
  - intros t' H. unfold upd. destruct (Nat.eqb t' t); [reflexivity|]. apply N, H.
Qed.
(* a task takes a step; files that others own stay *)
Lemma bounded_task : forall st t x y dk, bounded st -> tasks st t = Some x ->
  (forall f o d, dk f = Some (o, d) -> o <> t -> disk st f = Some (o, d)) ->
  (forall f d, dk f = Some (t, d) -> length d <= cs /\
     match t_phase y with Queued => False | Writing rest => length d + length rest <= cs | Ready => True end) ->
  bounded (set_task st t (Some y) dk).
Proof.
  intros st t x y dk [A N] T D1 D2.
  assert (LT : t < next st). { destruct (le_lt_dec (next st) t) as [H|H]; [rewrite (N t H) in T; discriminate|exact H]. }
  constructor; cbn.
  - intros f o d H. destruct (Nat.eq_dec o t) as [->|Ne].
    + destruct (D2 f d H) as [L P]. split; [exact L|]. split; [exact LT|]. intros z Hz. rewrite upd_eq in Hz. injection Hz as <-. exact P.
    + destruct (A f o d (D1 f o d H Ne)) as (A1 & A2 & A3). split; [exact A1|]. split; [exact A2|].
      intros z Hz. rewrite upd_ne in Hz by exact Ne. exact (A3 z Hz).
  - intros t' H. rewrite upd_ne by lia. apply N, H.
Qed.
Lemma bounded_step : forall st ev, small cs st -> bounded st -> bounded (step h cs st ev).
Proof.
  intros st ev S B. pose proof B as [A N].
  destruct ev as [i q s e|i net io|k|f|t|t|t n|t|t|t|q d|q]; cbn [step].
  - destruct (readers st i); [exact B|]. apply (bounded_same st); auto.
  - destruct (readers st i) as [r|] eqn:Er; [|exact B]. unfold read_step.
    assert (R : forall st' r', bounded st' -> bounded (set_reader st' i r')).
    { intros st' r' H. apply (bounded_same st'); auto. }
    destruct (r_pc r) as [|g| |cd|todo cd| | |] eqn:E; try exact B.
    + destruct (cache st _) as [[|]|]; apply R, B.
    + destruct (disk st g) as [[]|]; apply R, B.
    + destruct (if net then _ else _) as [d|]; apply R; [apply bounded_store|]; exact B.
    + destruct (_ && _); [|apply R, B]. destruct (if net then _ else _) as [d|]; apply R, B.
    + destruct todo as [|[k' d] todo]; apply R; [exact B|apply bounded_store, B].
  - apply (bounded_same st); auto.
  - destruct (existsb _ _); [|exact B]. constructor; cbn; [|exact N].
    intros f' o d H. apply updk_cases in H. destruct H as [[_ H]|[_ H]]; [discriminate|exact (A f' o d H)].
  - destruct (tasks st t) as [x|] eqn:E; [|exact B]. destruct (t_phase x) eqn:P; try exact B.
    pose proof (proj1 (proj2 S) t x E) as L.
    destruct (disk st (file_of h (t_key x))) eqn:F; apply (bounded_task st t x); auto; cbn [t_phase].
    + intros f d H. split; [exact (proj1 (A f t d H))|exact Logic.I].
    + intros f o d H Ne. apply updk_cases in H. destruct H as [[_ H]|[_ H]]; [congruence|exact H].
    + intros f d H. apply updk_cases in H. destruct H as [[_ H]|[_ H]]; [injection H as <-; split; [exact L|exact Logic.I]|].
      split; [exact (proj1 (A f t d H))|exact Logic.I].
  - destruct (tasks st t) as [x|] eqn:E; [|exact B]. destruct (t_phase x) eqn:P; try exact B.
    pose proof (proj1 (proj2 S) t x E) as L.
    destruct (disk st (file_of h (t_key x))) eqn:F; apply (bounded_task st t x); auto; cbn [t_phase].
    + intros f d H. split; [exact (proj1 (A f t d H))|exact Logic.I].
    + intros f o d H Ne. apply updk_cases in H. destruct H as [[_ H]|[_ H]]; [congruence|exact H].
    + intros f d H. apply updk_cases in H. destruct H as [[_ H]|[_ H]]; [injection H as <-; cbn; split; [lia|exact L]|].
      exfalso. destruct (A f t d H) as (_ & _ & A3). specialize (A3 x E). rewrite P in A3. exact A3.
  - destruct (tasks st t) as [x|] eqn:E; [|exact B]. destruct (t_phase x) as [|rest|] eqn:P; try exact B.
    assert (AW : forall f d, disk st f = Some (t, d) -> length d + length rest <= cs).
    { intros f d H. destruct (A f t d H) as (_ & _ & A3). specialize (A3 x E). rewrite P in A3. exact A3. }
    assert (KEEP : forall f d, disk st f = Some (t, d) -> length d <= cs /\ length d + length (skipn n rest) <= cs).
    { intros f d H. pose proof (AW f d H). rewrite skipn_length. lia. }
    destruct (disk st (file_of h (t_key x))) as [[o d]|] eqn:F; apply (bounded_task st t x); auto; cbn [t_phase].
    + intros f o' d' H Ne. destruct (Nat.eqb_spec o t) as [->|]; [|exact H]. apply updk_cases in H.
      destruct H as [[_ H]|[_ H]]; [congruence|exact H].
    + intros f d' H. destruct (Nat.eqb_spec o t) as [->|]; [|exact (KEEP f d' H)]. apply updk_cases in H.
      destruct H as [[_ H]|[_ H]]; [|exact (KEEP f d' H)]. injection H as <-. pose proof (AW _ _ F).
      rewrite app_length, firstn_length, skipn_length. lia.
  - destruct (tasks st t) as [x|] eqn:E; [|exact B]. destruct (t_phase x) as [|[|]|] eqn:P; try exact B.
    apply (bounded_task st t x); auto; cbn [t_phase]. intros f d H. split; [exact (proj1 (A f t d H))|exact Logic.I].
  - destruct (tasks st t) as [x|] eqn:E; [|exact B].
    destruct (t_phase x); try exact B; apply (bounded_same (set_task st t None (disk st))); try reflexivity; apply bounded_untask, B.
  - destruct (tasks st t) as [x|] eqn:E; [|exact B]. destruct (t_phase x); try exact B.
    apply (bounded_same (set_task st t None (disk st))); try reflexivity; apply bounded_untask, B.
  - apply (bounded_same st); auto.
  - apply (bounded_same st); auto.
Qed.
Lemma bounded_init : forall o, bounded (init o).
Proof. intros o. constructor; intros; [discriminate|reflexivity]. Qed.
End Bounded.

(* ---- how far a reader has come ---- *)
Section Shape.
Variable cs : nat.
Hypothesis cs_pos : cs > 0.
Definition live (r : reader) : Prop := match r_pc r with PDone _ | PErr | PPanic => False | _ => True end.
(* the number of chunks looked up so far *)
Definition looked (r : reader) : nat := match r_pc r with PLook | PFile _ | PRefetch => r_chunk r | _ => S (r_chunk r) end.
(* where the batch ends *)
Definition bend (r : reader) : nat := match r_pc r with PGot None | PStore _ None => S (r_chunk r) | _ => r_chunk r end.
Definition shape (r : reader) : Prop :=
  r_last r * cs <= r_end r - 1 /\
  (live r -> r_start r / cs <= r_chunk r /\ r_chunk r <= r_last r /\ r_last r = (r_end r - 1) / cs /\ r_end r > 0 /\
   r_batch r = seq (bend r - length (r_batch r)) (length (r_batch r)) /\ r_start r / cs + length (r_batch r) <= bend r /\
   (match r_pc r with PStore _ _ => r_batch r = [] | PGot None => length (r_batch r) > 0 | _ => True end)).
Definition reach (r : reader) : nat :=
  match r_pc r with
  | PDone _ | PErr | PPanic => (r_last r + 1 - r_start r / cs) * cs
  | _ => (looked r - length (r_batch r) - r_start r / cs) * cs
  end.
Lemma last_le : forall e, (e - 1) / cs * cs <= e - 1.
Proof. intros e. rewrite Nat.mul_comm. apply Nat.mul_div_le. lia. Qed.
Lemma shape_start : forall p s e, shape (start_read cs p s e).
Proof.
  intros p s e. unfold start_read. destruct (Nat.ltb e s || Nat.eqb e 0) eqn:X.
  - split; cbn; [lia|]. intros [].
  - apply orb_false_iff in X. destruct X as [X1 X2]. apply Nat.ltb_ge in X1. apply Nat.eqb_neq in X2.
    destruct (Nat.ltb_spec ((e - 1) / cs) (s / cs)); (split; [cbn [r_last r_end]; apply last_le|]); cbn; [intros []|].
    intros _. split; [lia|]. split; [assumption|]. split; [reflexivity|]. split; [lia|]. split; [reflexivity|]. split; [lia|trivial].
Qed.
Lemma shape_finish : forall r cd, shape r -> r_pc r = PGot cd \/ r_pc r = PStore [] cd -> read_request cs r = None ->
  shape (finish_chunk cs r cd) /\ reach r <= reach (finish_chunk cs r cd).
Proof.
  intros r cd [Sh HS] P Q. assert (Lv : live r) by (unfold live; destruct P as [-> | ->]; exact Logic.I).
  destruct (HS Lv) as (S1 & S2 & S3 & S4 & S5 & S6 & S7). unfold finish_chunk.
  assert (RE : reach r = (S (r_chunk r) - length (r_batch r) - r_start r / cs) * cs).
  { unfold reach, looked. destruct P as [-> | ->]; reflexivity. }
  (* a batch that goes on ends here *)
  assert (BE : r_chunk r < r_last r -> length (r_batch r) = 0 \/ cd = None).
  { intros LT. destruct P as [P|P].
    - unfold read_request in Q. rewrite P in Q. destruct cd as [d|]; [|right; reflexivity]. left.
      cbn [orb andb] in Q. destruct (r_batch r); [reflexivity|discriminate].
    - rewrite P in S7. rewrite S7. left. reflexivity. }
  destruct (Nat.ltb_spec (r_chunk r) (r_last r)) as [LT|GE].
  - split.
    + split; [exact Sh|]. intros _. cbn [r_start r_chunk r_last r_end r_batch r_pc bend].
      split; [lia|]. split; [lia|]. split; [exact S3|]. split; [exact S4|].
      destruct (BE LT) as [Z| ->].
      * destruct (r_batch r); [|discriminate]. cbn. split; [reflexivity|]. split; [lia|trivial].
      * assert (BB : bend r = S (r_chunk r)) by (unfold bend; destruct P as [-> | ->]; reflexivity). rewrite BB in S5, S6.
        split; [exact S5|]. split; [exact S6|trivial].
    + rewrite RE. unfold reach, looked. cbn [r_pc r_chunk r_batch r_start]. lia.
  - assert (E : r_chunk r = r_last r) by lia.
    assert (T : forall l, trim cs r l = PPanic \/ exists d, trim cs r l = PDone d).
    { intros l. unfold trim. destruct (Nat.ltb _ _); eauto. }
    split.
    + split; [exact Sh|]. unfold live. cbn [r_pc]. destruct (T (r_acc r ++ match cd with Some d => d | None => [] end)) as [-> | [d ->]]; intros [].
    + rewrite RE. unfold reach. cbn [r_pc r_last r_start]. destruct (T (r_acc r ++ match cd with Some d => d | None => [] end)) as [-> | [d ->]];
        apply Nat.mul_le_mono_r; lia.
Qed.
Lemma response_le : forall st net p a b d, response st net (p, a, b) = Some d -> length d <= b - a.
Proof.
  intros st net p a b d H. unfold response, inner_get in H. destruct net; [|discriminate]. destruct (objs st p) as [o|]; [|discriminate].
  destruct (Nat.ltb _ _); [|discriminate]. injection H as <-. rewrite firstn_length. lia.
Qed.
Lemma shape_moved : forall st net io r, small cs st -> bounded cs st -> shape r ->
  shape (moved cs st net io r) /\ reach r + gain cs st net io r <= reach (moved cs st net io r).
Proof.
  intros st net io r SM BD Sh.
  assert (TERM : forall q, live r -> match q with PDone _ | PErr | PPanic => True | _ => False end ->
            shape (at_pc r q) /\ reach r <= reach (at_pc r q)).
  { intros q Lv T. destruct Sh as [Sh HS]. destruct (HS Lv) as (S1 & S2 & S3 & S4 & S5 & S6 & S7). split.
    - split; [exact Sh|]. intros X. exfalso. revert X. unfold live. cbn [at_pc r_pc]. destruct q; tauto.
    - assert (RL : reach r <= (S (r_chunk r) - r_start r / cs) * cs).
      { unfold reach, looked. unfold live in Lv. destruct (r_pc r); try contradiction; apply Nat.mul_le_mono_r; lia. }
      unfold reach at 2. cbn [at_pc r_pc r_last r_start]. eapply Nat.le_trans; [exact RL|].
      destruct q; try contradiction; apply Nat.mul_le_mono_r; lia. }
  (* a chunk's own data has come *)
  assert (OWN : forall d, match r_pc r with PLook | PFile _ | PRefetch => True | _ => False end -> length d <= cs ->
            shape (at_pc r (PGot (Some d))) /\ reach r + length d <= reach (at_pc r (PGot (Some d)))).
  { intros d P L. destruct Sh as [Sh HS].
    assert (Lv : live r) by (unfold live; destruct (r_pc r); tauto).
    destruct (HS Lv) as (S1 & S2 & S3 & S4 & S5 & S6 & S7).
    assert (BB : bend r = r_chunk r) by (unfold bend; destruct (r_pc r) as [| | |[]|? []| | |]; tauto).
    rewrite BB in S5, S6. split.
    - split; [exact Sh|]. intros _. cbn. repeat (split; [assumption|]). exact Logic.I.
    - assert (RE : reach r = (r_chunk r - length (r_batch r) - r_start r / cs) * cs).
      { unfold reach, looked. destruct (r_pc r); tauto. }
      rewrite RE. unfold reach, looked. cbn [at_pc r_pc r_chunk r_batch r_start].
      replace (S (r_chunk r) - length (r_batch r) - r_start r / cs) with (S (r_chunk r - length (r_batch r) - r_start r / cs)) by lia.
      cbn [Nat.mul]. lia. }
  (* the read goes on to the file, or to a request for one chunk *)
  assert (ON : forall q, match r_pc r with PLook | PFile _ | PRefetch => True | _ => False end ->
            match q with PLook | PFile _ | PRefetch => True | _ => False end ->
            shape (at_pc r q) /\ reach r <= reach (at_pc r q)).
  { intros q P Q. destruct Sh as [Sh HS].
    assert (Lv : live r) by (unfold live; destruct (r_pc r); tauto).
    destruct (HS Lv) as (S1 & S2 & S3 & S4 & S5 & S6 & S7).
    assert (BB : bend r = r_chunk r) by (unfold bend; destruct (r_pc r) as [| | |[]|? []| | |]; tauto).
    assert (B2 : bend (at_pc r q) = r_chunk r) by (unfold bend; cbn [at_pc r_pc r_chunk]; destruct q as [| | |[]|? []| | |]; tauto).
    split.
    - split; [exact Sh|]. intros _. rewrite B2. rewrite BB in S5, S6. cbn [at_pc r_start r_chunk r_last r_end r_batch r_pc].
      repeat (split; [assumption|]). destruct q; tauto.
    - unfold reach, looked. cbn [at_pc r_pc r_chunk r_batch r_start]. destruct (r_pc r), q; try contradiction; apply Nat.le_refl. }
  destruct (r_pc r) as [|g| |cd|todo cd| | |] eqn:E.
  - unfold moved, gain. rewrite E. destruct (cache st (r_path r, r_chunk r)) as [[d|f z]|] eqn:C.
    + apply OWN; [exact Logic.I|]. exact (proj1 SM _ _ C).
    + rewrite Nat.add_0_r. apply ON; exact Logic.I.
    + destruct Sh as [Sh HS]. destruct HS as (S1 & S2 & S3 & S4 & S5 & S6 & S7); [unfold live; rewrite E; exact Logic.I|].
      unfold bend in S5, S6. rewrite E in S5, S6. split.
      * split; [exact Sh|]. intros _. unfold bend. cbn [r_start r_chunk r_last r_end r_batch r_pc]. rewrite app_length. cbn [length].
        split; [lia|]. split; [lia|]. split; [lia|]. split; [lia|]. split; [|lia].
        rewrite Nat.add_1_r, seq_S. replace (S (r_chunk r) - S (length (r_batch r))) with (r_chunk r - length (r_batch r)) by lia.
        rewrite <- S5. f_equal. f_equal. lia.
      * unfold reach, looked. rewrite E. cbn [r_pc r_chunk r_batch r_start]. rewrite app_length. cbn [length].
        rewrite Nat.add_0_r. apply Nat.mul_le_mono_r. lia.
  - unfold moved, gain. rewrite E. destruct (disk st g) as [[o d]|] eqn:D.
    + destruct io; [|rewrite Nat.add_0_r; apply ON; exact Logic.I]. apply OWN; [exact Logic.I|]. exact (proj1 (bd_file cs st BD g o d D)).
    + rewrite Nat.add_0_r; apply ON; exact Logic.I.
  - unfold moved, gain. rewrite E.
    assert (R : read_request cs r = Some (r_path r, r_chunk r * cs, (r_chunk r + 1) * cs)) by (unfold read_request; rewrite E; reflexivity).
    rewrite R. destruct (response st net _) as [d|] eqn:P.
    + apply OWN; [exact Logic.I|]. apply response_le in P. lia.
    + rewrite Nat.add_0_r. apply TERM; [unfold live; rewrite E|]; exact Logic.I.
  - unfold moved, gain. rewrite E. destruct (read_request cs r) as [q|] eqn:R.
    2:{ rewrite Nat.add_0_r. apply shape_finish; auto. }
    destruct (response st net q) as [d|] eqn:P.
    2:{ rewrite Nat.add_0_r. apply TERM; [unfold live; rewrite E|]; exact Logic.I. }
    destruct Sh as [Sh HS]. destruct HS as (S1 & S2 & S3 & S4 & S5 & S6 & S7); [unfold live; rewrite E; exact Logic.I|].
    unfold read_request in R. rewrite E in R. destruct (_ && _) eqn:C; [|discriminate]. injection R as <-.
    apply andb_true_iff in C. destruct C as [_ C]. 
    assert (L : length d <= length (r_batch r) * cs).
    { apply response_le in P. destruct (r_batch r) as [|b0 b1] eqn:EB; [discriminate|]. cbn [length] in S5. rewrite S5 in P.
      rewrite hd_seq_, last_seq_ in P. cbn [length]. nia. }
    split.
    + split; [exact Sh|]. intros _. cbn [r_start r_chunk r_last r_end r_batch r_pc length].
      split; [lia|]. split; [lia|]. split; [lia|]. split; [lia|]. split; [reflexivity|]. split; [|reflexivity].
      unfold bend in *. cbn [r_pc r_chunk]. rewrite E in *. destruct cd; lia.
    + unfold reach, looked. rewrite E. cbn [r_pc r_chunk r_batch r_start length]. rewrite Nat.sub_0_r.
      assert (X : r_start r / cs + length (r_batch r) <= S (r_chunk r)) by (unfold bend in S6; rewrite E in S6; destruct cd; lia).
      eapply Nat.le_trans; [apply Nat.add_le_mono_l, L|]. rewrite <- Nat.mul_add_distr_r. apply Nat.mul_le_mono_r. lia.
  - unfold moved, gain. rewrite E. unfold read_request. rewrite E. rewrite Nat.add_0_r. destruct todo as [|[k d] todo].
    + apply shape_finish; auto. unfold read_request. rewrite E. reflexivity.
    + destruct Sh as [Sh HS]. destruct HS as (S1 & S2 & S3 & S4 & S5 & S6 & S7); [unfold live; rewrite E; exact Logic.I|].
      unfold bend in S5, S6. rewrite E in S5, S6, S7. split.
      * split; [exact Sh|]. intros _. unfold bend. cbn [at_pc r_start r_chunk r_last r_end r_batch r_pc]. repeat (split; [assumption|]). assumption.
      * unfold reach, looked. rewrite E. cbn [at_pc r_pc r_chunk r_batch r_start]. apply Nat.le_refl.
  - unfold moved, gain. rewrite E. unfold read_request. rewrite E. split; [exact Sh|lia].
  - unfold moved, gain. rewrite E. unfold read_request. rewrite E. split; [exact Sh|lia].
  - unfold moved, gain. rewrite E. unfold read_request. rewrite E. split; [exact Sh|lia].
Qed.
End Shape.

Section Overhead.
Variable h : nat -> nat.
Variable cs : nat.
Hypothesis cs_pos : cs > 0.
Definition shapes (st : state) : Prop := forall i r, readers st i = Some r -> shape cs r.
Definition reached (st : state) (i : nat) : nat := match readers st i with Some r => reach cs r | None => 0 end.
Lemma shapes_step : forall st ev, small cs st -> bounded cs st -> shapes st ->
  shapes (step h cs st ev) /\
  forall is, NoDup is -> (forall i, readers (step h cs st ev) i <> None -> In i is) ->
    sum (map (reached st) is) + m_got cs st ev <= sum (map (reached (step h cs st ev)) is).
Proof.
  intros st ev SM BD SH.
  assert (O : forall j, mover ev <> Some j -> reached (step h cs st ev) j = reached st j).
  { intros j Hj. unfold reached. rewrite (others_stay h cs st ev j Hj). reflexivity. }
  destruct (mover ev) as [i|] eqn:M.
  2:{ split.
      - intros j r H. rewrite (others_stay h cs st ev j) in H by (rewrite M; discriminate). exact (SH j r H).
      - intros is ND _. rewrite (sum_ext (reached (step h cs st ev)) (reached st)) by (intros j _; apply O; discriminate).
        rewrite (got_none cs st ev); [lia|]. intros i net io ->. discriminate. }
  assert (P : (forall r, readers (step h cs st ev) i = Some r -> shape cs r) /\
              reached st i + m_got cs st ev <= reached (step h cs st ev) i).
  { destruct ev as [i' q s e|i' net io| | | | | | | | | |]; cbn in M; try discriminate; injection M as ->.
    - unfold reached. cbn [step]. destruct (readers st i) as [r|] eqn:E.
      + rewrite E. split; [intros r' H; injection H as <-; exact (SH i r E)|]. unfold m_got. cbn. lia.
      + cbn. rewrite upd_eq. split; [intros r' H; injection H as <-; apply shape_start; exact cs_pos|]. unfold m_got. cbn. lia.
    - destruct (readers st i) as [r|] eqn:E.
      + unfold reached. rewrite (reader_moves h cs st i r net io E), E, (got_step cs st i net io r E).
        destruct (shape_moved cs cs_pos st net io r SM BD (SH i r E)) as [A B].
        split; [intros r' H; injection H as <-; exact A|exact B].
      + unfold reached. cbn [step]. rewrite E. rewrite E. split; [discriminate|]. unfold m_got, m_memory, m_disk, m_missed. rewrite E. lia. }
  destruct P as [P1 P2]. split.
  - intros j r H. destruct (Nat.eq_dec j i) as [->|N]; [exact (P1 r H)|].
    rewrite (others_stay h cs st ev j) in H by (rewrite M; congruence). exact (SH j r H).
  - intros is ND Cov. destruct (in_dec Nat.eq_dec i is) as [Hi|Hi].
    + assert (O' : forall j, j <> i -> reached (step h cs st ev) j = reached st j) by (intros j Hj; apply O; congruence).
      pose proof (sum_change (reached st) (reached (step h cs st ev)) i is ND Hi O') as S. lia.
    + assert (Z : readers (step h cs st ev) i = None).
      { destruct (readers (step h cs st ev) i) eqn:X; [|reflexivity]. exfalso. apply Hi, Cov. congruence. }
      assert (Z2 : m_got cs st ev = 0).
      { unfold reached in P2. rewrite Z in P2. lia. }
      assert (O' : forall j, j <> i -> reached (step h cs st ev) j = reached st j) by (intros j Hj; apply O; congruence).
      pose proof (sum_same (reached st) (reached (step h cs st ev)) i is Hi O') as S. lia.
Qed.
Lemma readers_stay : forall st ev i, readers st i <> None -> readers (step h cs st ev) i <> None.
Proof.
  intros st ev i H. destruct (mover ev) as [j|] eqn:M.
  2:{ rewrite others_stay; [exact H|]. rewrite M. discriminate. }
  destruct (Nat.eq_dec i j) as [->|N]; [|rewrite others_stay; [exact H|]; rewrite M; congruence].
  destruct (readers st j) as [r|] eqn:E; [|congruence].
  destruct ev as [i' q s e|i' net io| | | | | | | | | |]; cbn in M; try discriminate; injection M as ->.
  - cbn [step]. rewrite E. congruence.
  - rewrite (reader_moves h cs st j r net io E). discriminate.
Qed.
Lemma readers_stay_run : forall evs st i, readers st i <> None -> readers (run h cs st evs) i <> None.
Proof. induction evs as [|ev evs IH]; intros st i H; [exact H|]. apply IH, readers_stay, H. Qed.
Lemma overhead_run : forall evs st is, small cs st -> bounded cs st -> shapes st -> NoDup is ->
  (forall i, readers (run h cs st evs) i <> None -> In i is) ->
  shapes (run h cs st evs) /\ sum (map (reached st) is) + counter m_got h cs st evs <= sum (map (reached (run h cs st evs)) is).
Proof.
  induction evs as [|ev evs IH]; intros st is SM BD SH ND Cov; [cbn; split; [exact SH|lia]|].
  cbn [run fold_left counter] in *. destruct (shapes_step st ev SM BD SH) as [S1 S2].
  destruct (IH (step h cs st ev) is (small_step h cs st ev SM) (bounded_step h cs st ev SM BD) S1 ND Cov) as [A B].
  split; [exact A|]. specialize (S2 is ND). unfold run in *.
  assert (C : forall i, readers (step h cs st ev) i <> None -> In i is).
  { intros i H. apply Cov. exact (readers_stay_run evs (step h cs st ev) i H). }
  specialize (S2 C). lia.
Qed.
Lemma reach_le : forall r, shape cs r -> reach cs r <= r_end r - r_start r + 2 * cs.
Proof.
  intros r [Sh S].
  assert (F : r_start r < (r_start r / cs + 1) * cs).
  { rewrite Nat.mul_add_distr_r, Nat.mul_1_l, Nat.mul_comm. pose proof (Nat.div_mod r.(r_start) cs ltac:(lia)). pose proof (Nat.mod_upper_bound r.(r_start) cs ltac:(lia)). lia. }
  assert (G : (r_last r + 1 - r_start r / cs) * cs <= r_end r - r_start r + 2 * cs).
  { set (a := r_start r / cs) in *. set (l := r_last r) in *. rewrite Nat.mul_sub_distr_r, Nat.mul_add_distr_r. rewrite Nat.mul_add_distr_r in F. lia. }
  unfold reach. destruct (r_pc r) eqn:E; try exact G;
    (destruct S as (S1 & S2 & _); [unfold live; rewrite E; exact Logic.I|]); eapply Nat.le_trans; [|exact G| |exact G| |exact G| |exact G| |exact G];
    unfold looked; rewrite E; apply Nat.mul_le_mono_r; lia.
Qed.
End Overhead.

(* ---- calls ---- *)
Definition started (st : state) (i : nat) : nat := match readers st i with Some _ => 1 | None => 0 end.
Definition wanted (st : state) (i : nat) : nat := match readers st i with Some r => r_end r - r_start r | None => 0 end.
Lemma moved_range : forall cs st net io r, r_start (moved cs st net io r) = r_start r /\ r_end (moved cs st net io r) = r_end r.
Proof.
  intros cs st net io r. assert (F : forall cd, r_start (finish_chunk cs r cd) = r_start r /\ r_end (finish_chunk cs r cd) = r_end r).
  { intros cd. unfold finish_chunk. destruct (Nat.ltb _ _); split; reflexivity. }
  unfold moved. destruct (r_pc r) as [|g| |cd|[|] cd| | |]; try (split; reflexivity); auto.
  - destruct (cache st _) as [[|]|]; split; reflexivity.
  - destruct (disk st g) as [[]|]; split; reflexivity.
  - destruct (response st net _); split; reflexivity.
  - destruct (read_request cs r) as [q|]; auto. destruct (response st net q); split; reflexivity.
Qed.
Lemma calls_step : forall h cs st ev is, NoDup is -> (forall i, readers (step h cs st ev) i <> None -> In i is) ->
  sum (map (started st) is) + m_calls cs st ev = sum (map (started (step h cs st ev)) is) /\
  sum (map (wanted st) is) + m_requested cs st ev = sum (map (wanted (step h cs st ev)) is).
Proof.
  intros h cs st ev is ND Cov.
  assert (SAME : (forall i, started (step h cs st ev) i = started st i) -> (forall i, wanted (step h cs st ev) i = wanted st i) ->
            m_calls cs st ev = 0 -> m_requested cs st ev = 0 ->
            sum (map (started st) is) + m_calls cs st ev = sum (map (started (step h cs st ev)) is) /\
            sum (map (wanted st) is) + m_requested cs st ev = sum (map (wanted (step h cs st ev)) is)).
  { intros A B C D. rewrite C, D. split; rewrite Nat.add_0_r; apply sum_ext; intros i _; symmetry; auto. }
  destruct (mover ev) as [i|] eqn:M.
  2:{ assert (O : forall j, readers (step h cs st ev) j = readers st j) by (intros j; apply others_stay; rewrite M; discriminate).
      apply SAME; try (intros j; unfold started, wanted; rewrite O; reflexivity); destruct ev; try reflexivity; discriminate. }
  assert (O : forall j, j <> i -> readers (step h cs st ev) j = readers st j) by (intros j Hj; apply others_stay; rewrite M; congruence).
  destruct ev as [i' q s e|i' net io| | | | | | | | | |]; cbn in M; try discriminate; injection M as ->.
  - unfold m_calls, m_requested. destruct (readers st i) as [r|] eqn:E.
    + cbn [step]. rewrite E. lia.
    + assert (Hi : In i is) by (apply Cov; cbn [step]; rewrite E; cbn; rewrite upd_eq; discriminate).
      assert (X : readers (step h cs st (ERead i q s e)) i = Some (start_read cs q s e)) by (cbn [step]; rewrite E; cbn; apply upd_eq).
      assert (Y : r_start (start_read cs q s e) = s /\ r_end (start_read cs q s e) = e).
      { unfold start_read. destruct (_ || _); [split; reflexivity|]. destruct (Nat.ltb _ _); split; reflexivity. }
      destruct Y as [Y1 Y2]. split.
      * assert (V1 : started st i = 0) by (unfold started; rewrite E; reflexivity).
        assert (V2 : started (step h cs st (ERead i q s e)) i = 1) by (unfold started; rewrite X; reflexivity).
        assert (V3 : forall j, j <> i -> started (step h cs st (ERead i q s e)) j = started st j) by (intros j Hj; unfold started; rewrite (O j Hj); reflexivity).
        pose proof (sum_change (started st) (started (step h cs st (ERead i q s e))) i is ND Hi V3) as S. lia.
      * assert (V1 : wanted st i = 0) by (unfold wanted; rewrite E; reflexivity).
        assert (V2 : wanted (step h cs st (ERead i q s e)) i = e - s) by (unfold wanted; rewrite X, Y1, Y2; reflexivity).
        assert (V3 : forall j, j <> i -> wanted (step h cs st (ERead i q s e)) j = wanted st j) by (intros j Hj; unfold wanted; rewrite (O j Hj); reflexivity).
        pose proof (sum_change (wanted st) (wanted (step h cs st (ERead i q s e))) i is ND Hi V3) as S. lia.
  - assert (Z : forall j, started (step h cs st (EStep i net io)) j = started st j /\ wanted (step h cs st (EStep i net io)) j = wanted st j).
    { intros j. destruct (Nat.eq_dec j i) as [->|N]; [|unfold started, wanted; rewrite (O j N); split; reflexivity].
      destruct (readers st i) as [r|] eqn:E.
      - unfold started, wanted. rewrite (reader_moves h cs st i r net io E), E. destruct (moved_range cs st net io r) as [-> ->]. split; reflexivity.
      - unfold started, wanted. cbn [step]. rewrite E. rewrite E. split; reflexivity. }
    apply SAME; try reflexivity; intros j; apply Z.
Qed.
Lemma calls_run : forall h cs evs st is, NoDup is -> (forall i, readers (run h cs st evs) i <> None -> In i is) ->
  sum (map (started st) is) + counter m_calls h cs st evs = sum (map (started (run h cs st evs)) is) /\
  sum (map (wanted st) is) + counter m_requested h cs st evs = sum (map (wanted (run h cs st evs)) is).
Proof.
  intros h cs evs. induction evs as [|ev evs IH]; intros st is ND Cov; [cbn; lia|].
  cbn [run fold_left counter] in *. destruct (IH (step h cs st ev) is ND Cov) as [A B].
  destruct (calls_step h cs st ev is ND) as [C D].
  { intros i H. apply Cov. exact (readers_stay_run h cs evs (step h cs st ev) i H). }
  unfold run in *. lia.
Qed.

(* ---- requests to the underlying store ---- *)
Lemma outbound_run : forall h cs evs st,
  counter (m_outbound true) h cs st evs + counter (m_outbound false) h cs st evs = length (requests h cs st evs).
Proof.
  intros h cs evs. induction evs as [|ev evs IH]; intros st; [reflexivity|]. cbn [counter requests]. rewrite app_length, <- IH.
  assert (E : m_outbound true cs st ev + m_outbound false cs st ev = length (event_request cs st ev)); [|lia].
  unfold m_outbound, event_request. destruct ev; try reflexivity. destruct (readers st i) as [r|]; [|reflexivity].
  destruct (read_request cs r) as [q|]; [|reflexivity]. destruct (response st net q); reflexivity.
Qed.
Lemma objs_stay : forall h cs st ev, match ev with EPut _ _ | EDelete _ => False | _ => True end -> objs (step h cs st ev) = objs st.
Proof.
  intros h cs st ev H. 
  assert (C : forall k d, objs (cache_chunk_data st k d) = objs st) by (intros k d; unfold cache_chunk_data; destruct (cache st k); reflexivity).
  destruct ev as [i q s e|i net io|k|f|t|t|t n|t|t|t|q d|q]; cbn [step]; try contradiction.
  - destruct (readers st i); reflexivity.
  - destruct (readers st i) as [r|]; [|reflexivity]. unfold read_step. destruct (r_pc r) as [|g| |cd|todo cd| | |]; try reflexivity.
    + destruct (cache st _) as [[|]|]; reflexivity.
    + destruct (disk st g) as [[]|]; reflexivity.
    + destruct (if net then _ else _); [apply C|reflexivity].
    + destruct (_ && _); [|reflexivity]. destruct (if net then _ else _); reflexivity.
    + destruct todo as [|[k d] todo]; [reflexivity|apply C].
  - reflexivity.
  - destruct (existsb _ _); reflexivity.
  - destruct (tasks st t) as [x|]; [|reflexivity]. destruct (t_phase x); try reflexivity. destruct (disk st _); reflexivity.
  - destruct (tasks st t) as [x|]; [|reflexivity]. destruct (t_phase x); try reflexivity. destruct (disk st _); reflexivity.
  - destruct (tasks st t) as [x|]; [|reflexivity]. destruct (t_phase x); try reflexivity. destruct (disk st _) as [[]|]; reflexivity.
  - destruct (tasks st t) as [x|]; [|reflexivity]. destruct (t_phase x) as [|[|]|]; reflexivity.
  - destruct (tasks st t) as [x|]; [|reflexivity]. destruct (t_phase x); reflexivity.
  - destruct (tasks st t) as [x|]; [|reflexivity]. destruct (t_phase x); reflexivity.
Qed.
Lemma missed_run : forall h cs o evs st, objs st = o -> Forall steady evs ->
  counter m_missed h cs st evs = sum (map (fun q => length (part o q)) (requests h cs st evs)).
Proof.
  intros h cs o evs. induction evs as [|ev evs IH]; intros st Ho F; [reflexivity|].
  inversion F as [|? ? F1 F2]; subst. cbn [counter requests].
  rewrite (IH (step h cs st ev)); [|apply objs_stay; destruct ev; try exact Logic.I; exact F1|exact F2].
  rewrite map_app. unfold sum at 2. rewrite fold_right_app. fold (sum (map (fun q => length (part (objs st) q)) (requests h cs (step h cs st ev) evs))).
  assert (E : forall n, m_missed cs st ev + n = fold_right Nat.add n (map (fun q => length (part (objs st) q)) (event_request cs st ev))); [|apply E].
  intros n. unfold m_missed, event_request. destruct ev as [ |i net io| | | | | | | | | |]; try reflexivity.
  destruct (readers st i) as [r|]; [|reflexivity]. destruct (read_request cs r) as [[[p a] b]|]; [|reflexivity].
  cbn in F1. subst net. cbn [map fold_right]. f_equal. unfold response, inner_get, part. destruct (objs st p) as [d|]; [|reflexivity].
  destruct (Nat.ltb_spec a (length d)); [reflexivity|]. rewrite skipn_all2 by lia. rewrite firstn_nil. reflexivity.
Qed.

(* ---- what is written to disk has been downloaded ---- *)
Section Written.
Variable h : nat -> nat.
Variable cs : nat.
Hypothesis cs_pos : cs > 0.
Definition pend_task (st : state) (t : nat) : nat :=
  match tasks st t with Some x => match t_phase x with Ready => 0 | _ => length (t_data x) end | None => 0 end.
Definition todo_bytes (todo : list (key * list nat)) : nat := sum (map (fun kd => length (snd kd)) todo).
Definition todo_of (r : reader) : nat := match r_pc r with PStore todo _ => todo_bytes todo | _ => 0 end.
Definition pend_read (st : state) (i : nat) : nat := match readers st i with Some r => todo_of r | None => 0 end.
Definition pend_tasks (st : state) : nat := sum (map (pend_task st) (seq 0 (next st))).
Definition within (st : state) : Prop :=
  forall i r, readers st i = Some r -> live r -> exists D, objs st (r_path r) = Some D /\ r_last r * cs < length D.

Lemma split_total : forall p l d, length l * cs < length d + cs -> todo_bytes (split_batch cs p l d) <= length d.
Proof.
  intros p l. induction l as [|c l IH]; intros d H; cbn [split_batch]; [cbn; lia|]. cbn [length] in H.
  destruct (Nat.ltb_spec (length d) cs) as [L|L]; unfold todo_bytes; cbn; fold (todo_bytes (split_batch cs p l d)).
  - destruct l; [cbn; lia|]. exfalso. cbn [length] in H. nia.
  - fold (sum (map (fun kd : key * list nat => length (snd kd)) (split_batch cs p l (skipn cs d)))).
    fold (todo_bytes (split_batch cs p l (skipn cs d))). specialize (IH (skipn cs d)). rewrite skipn_length in IH.
    rewrite firstn_length. nia.
Qed.
Lemma sum_app : forall a b, sum (a ++ b) = sum a + sum b.
Proof. intros a b. induction a as [|x a IH]; [reflexivity|]. cbn. fold (sum (a ++ b)) (sum a). rewrite IH. lia. Qed.
Lemma pend_store : forall st k d, (forall t, next st <= t -> tasks st t = None) ->
  pend_tasks (cache_chunk_data st k d) <= pend_tasks st + length d.
Proof.
  intros st k d N. unfold cache_chunk_data. destruct (cache st k); [lia|]. unfold pend_tasks. cbn [next].
  rewrite seq_S, map_app, sum_app. cbn [map Nat.add].
  rewrite (sum_ext _ (pend_task st) (seq 0 (next st))).
  - unfold pend_task at 2. cbn [tasks]. rewrite upd_eq. cbn. lia.
  - intros t Ht. apply in_seq in Ht. unfold pend_task. cbn [tasks]. rewrite upd_ne by lia. reflexivity.
Qed.
Lemma pend_task_step : forall st t x y dk, (forall u, next st <= u -> tasks st u = None) -> tasks st t = Some x ->
  pend_tasks (set_task st t y dk) + match t_phase x with Ready => 0 | _ => length (t_data x) end =
  pend_tasks st + match y with Some z => match t_phase z with Ready => 0 | _ => length (t_data z) end | None => 0 end.
Proof.
  intros st t x y dk N T. unfold pend_tasks. cbn [next set_task].
  assert (LT : t < next st). { destruct (le_lt_dec (next st) t) as [H|H]; [rewrite (N t H) in T; discriminate|exact H]. }
  assert (O : forall j, j <> t -> pend_task (set_task st t y dk) j = pend_task st j).
  { intros j Hj. unfold pend_task. cbn [tasks set_task]. rewrite upd_ne by exact Hj. reflexivity. }
  pose proof (sum_change (pend_task st) (pend_task (set_task st t y dk)) t (seq 0 (next st)) (seq_NoDup _ _) ltac:(apply in_seq; lia) O) as S.
  assert (V1 : pend_task st t = match t_phase x with Ready => 0 | _ => length (t_data x) end) by (unfold pend_task; rewrite T; reflexivity).
  assert (V2 : pend_task (set_task st t y dk) t = match y with Some z => match t_phase z with Ready => 0 | _ => length (t_data z) end | None => 0 end)
    by (unfold pend_task; cbn [tasks set_task]; rewrite upd_eq; reflexivity).
  lia.
Qed.
Lemma pend_tasks_ext : forall st st', tasks st' = tasks st -> next st' = next st -> pend_tasks st' = pend_tasks st.
Proof. intros st st' T N. unfold pend_tasks. rewrite N. apply sum_ext. intros t _. unfold pend_task. rewrite T. reflexivity. Qed.
Lemma response_length : forall st net p a b d D, response st net (p, a, b) = Some d -> objs st p = Some D ->
  length d = Nat.min (b - a) (length D - a).
Proof.
  intros st net p a b d D H O. unfold response, inner_get in H. destruct net; [|discriminate]. rewrite O in H.
  destruct (Nat.ltb _ _); [|discriminate]. injection H as <-. rewrite firstn_length, skipn_length. reflexivity.
Qed.
(* one step of a reader *)
Lemma written_move : forall st i r net io, (forall t, next st <= t -> tasks st t = None) -> within st -> shape cs r -> readers st i = Some r ->
  pend_tasks (step h cs st (EStep i net io)) + todo_of (moved cs st net io r) <= pend_tasks st + todo_of r + m_missed cs st (EStep i net io).
Proof.
  intros st i r net io N W Sh E. cbn [step]. rewrite E. unfold m_missed. rewrite E.
  assert (F : forall cd, todo_of (finish_chunk cs r cd) = 0).
  { intros cd. unfold finish_chunk, todo_of. destruct (Nat.ltb _ _); cbn [r_pc]; [reflexivity|]. unfold trim. destruct (Nat.ltb _ _); reflexivity. }
  assert (R : forall st' r', pend_tasks (set_reader st' i r') = pend_tasks st') by (intros; apply pend_tasks_ext; reflexivity).
  unfold read_step, moved. destruct (r_pc r) as [|g| |cd|todo cd| | |] eqn:P.
  - destruct (cache st _) as [[|]|]; rewrite R; unfold todo_of; cbn [at_pc r_pc]; lia.
  - destruct (disk st g) as [[]|]; [destruct io|]; rewrite R; unfold todo_of; cbn [at_pc r_pc]; lia.
  - assert (RR : read_request cs r = Some (r_path r, r_chunk r * cs, (r_chunk r + 1) * cs)) by (unfold read_request; rewrite P; reflexivity).
    rewrite RR. unfold response. destruct (if net then _ else _) as [d|]; rewrite R; unfold todo_of; cbn [at_pc r_pc]; [|lia].
    pose proof (pend_store st (r_path r, r_chunk r) d N). lia.
  - unfold read_request. rewrite P. destruct (_ && _) eqn:C; [|rewrite R, F; lia].
    destruct (response st net (r_path r, hd 0 (r_batch r) * cs, (last (r_batch r) 0 + 1) * cs)) as [d|] eqn:X; unfold response in X; rewrite X; rewrite R; unfold todo_of; cbn [at_pc r_pc]; [|lia].
    apply Nat.add_le_mono; [lia|].
    destruct Sh as [Sh HS]. destruct HS as (S1 & S2 & S3 & S4 & S5 & S6 & S7); [unfold live; rewrite P; exact Logic.I|].
    destruct (W i r E) as (D & O & L); [unfold live; rewrite P; exact Logic.I|].
    apply split_total. apply andb_true_iff in C. destruct C as [_ C]. pose proof (response_length st net _ _ _ d D X O) as LE.
    destruct (r_batch r) as [|b0 b1] eqn:EB; [discriminate|]. cbn [length] in S5, S6. 
    rewrite S5 in LE. rewrite hd_seq_, last_seq_ in LE. cbn [length].
    assert (BL : bend r <= S (r_chunk r)) by (unfold bend; rewrite P; destruct cd; lia).
    set (b := bend r - S (length b1)) in *. set (m := length b1) in *.
    assert (B1 : (b + m) * cs < length D).
    { eapply Nat.le_lt_trans; [|exact L]. apply Nat.mul_le_mono_r. unfold b. lia. }
    rewrite LE. assert (B2 : (b + m + 1) * cs - b * cs = (m + 1) * cs) by nia. rewrite B2. nia.
  - unfold read_request. rewrite P. destruct todo as [|[k d] todo]; [rewrite R, F; unfold todo_of; rewrite P; lia|].
    rewrite R. unfold todo_of. rewrite P. cbn [at_pc r_pc]. unfold todo_bytes at 2. cbn. fold (sum (map (fun kd : key * list nat => length (snd kd)) todo)).
    fold (todo_bytes todo). pose proof (pend_store st k d N). lia.
  - lia.
  - lia.
  - lia.
Qed.
Lemma pend_read_start : forall p s e, todo_of (start_read cs p s e) = 0.
Proof. intros p s e. unfold start_read, todo_of. destruct (_ || _); [reflexivity|]. destruct (Nat.ltb _ _); reflexivity. Qed.
Lemma written_step : forall st ev is, (forall t, next st <= t -> tasks st t = None) -> within st -> shapes cs st -> NoDup is ->
  (forall i, readers (step h cs st ev) i <> None -> In i is) ->
  pend_tasks (step h cs st ev) + sum (map (pend_read (step h cs st ev)) is) + m_written h cs st ev <=
  pend_tasks st + sum (map (pend_read st) is) + m_missed cs st ev.
Proof.
  intros st ev is N W SH ND Cov.
  destruct (mover ev) as [i|] eqn:M.
  - assert (O : forall j, j <> i -> pend_read (step h cs st ev) j = pend_read st j).
    { intros j Hj. unfold pend_read. rewrite others_stay; [reflexivity|]. rewrite M. congruence. }
    destruct ev as [i' q s e|i' net io| | | | | | | | | |]; cbn in M; try discriminate; injection M as ->.
    + assert (T : pend_tasks (step h cs st (ERead i q s e)) = pend_tasks st).
      { apply pend_tasks_ext; cbn [step]; destruct (readers st i); reflexivity. }
      assert (Z : pend_read (step h cs st (ERead i q s e)) i = pend_read st i).
      { unfold pend_read. cbn [step]. destruct (readers st i) eqn:E; [rewrite E; reflexivity|]. cbn. rewrite upd_eq. apply pend_read_start. }
      rewrite T. rewrite (sum_ext (pend_read (step h cs st (ERead i q s e))) (pend_read st)); [cbn; lia|].
      intros j _. destruct (Nat.eq_dec j i) as [->|Hj]; [exact Z|apply O, Hj].
    + destruct (readers st i) as [r|] eqn:E.
      2:{ assert (X : step h cs st (EStep i net io) = st) by (cbn [step]; rewrite E; reflexivity). rewrite X. cbn [m_written]. lia. }
      pose proof (written_move st i r net io N W (SH i r E) E) as WM.
      assert (Hi : In i is) by (apply Cov; rewrite (reader_moves h cs st i r net io E); discriminate).
      pose proof (sum_change (pend_read st) (pend_read (step h cs st (EStep i net io))) i is ND Hi O) as S.
      assert (V1 : pend_read st i = todo_of r) by (unfold pend_read; rewrite E; reflexivity).
      assert (V2 : pend_read (step h cs st (EStep i net io)) i = todo_of (moved cs st net io r)) by (unfold pend_read; rewrite (reader_moves h cs st i r net io E); reflexivity).
      cbn [m_written]. lia.
  - assert (O : sum (map (pend_read (step h cs st ev)) is) = sum (map (pend_read st) is)).
    { apply sum_ext. intros j _. unfold pend_read. rewrite others_stay; [reflexivity|]. rewrite M. discriminate. }
    rewrite O.
    assert (P : pend_tasks (step h cs st ev) + m_written h cs st ev <= pend_tasks st); [|lia]. clear O.
    destruct ev as [i q s e|i net io|k|f|t|t|t n|t|t|t|q d|q]; cbn in M; try discriminate; cbn [step m_written].
    + rewrite (pend_tasks_ext st); auto. lia.
    + destruct (existsb _ _); [|lia]. rewrite (pend_tasks_ext st); auto. lia.
    + destruct (tasks st t) as [x|] eqn:E; [|lia]. destruct (t_phase x) eqn:Ph; try lia.
      destruct (disk st _).
      * pose proof (pend_task_step st t x (Some {| t_key := t_key x; t_data := t_data x; t_phase := Ready |}) (disk st) N E) as S. rewrite Ph in S. cbn [t_phase] in S. lia.
      * pose proof (pend_task_step st t x (Some {| t_key := t_key x; t_data := t_data x; t_phase := Ready |})
          (updk (file_of h (t_key x)) (Some (t, t_data x)) (disk st)) N E) as S. rewrite Ph in S. cbn [t_phase] in S. lia.
    + destruct (tasks st t) as [x|] eqn:E; [|lia]. destruct (t_phase x) eqn:Ph; try lia.
      destruct (disk st _).
      * pose proof (pend_task_step st t x (Some {| t_key := t_key x; t_data := t_data x; t_phase := Ready |}) (disk st) N E) as S. rewrite Ph in S. cbn [t_phase] in S. lia.
      * pose proof (pend_task_step st t x (Some {| t_key := t_key x; t_data := t_data x; t_phase := Writing (t_data x) |})
          (updk (file_of h (t_key x)) (Some (t, [])) (disk st)) N E) as S. rewrite Ph in S. cbn [t_phase t_data] in S. lia.
    + destruct (tasks st t) as [x|] eqn:E; [|lia]. destruct (t_phase x) as [|rest|] eqn:Ph; try lia.
      assert (S : forall dk, pend_tasks (set_task st t (Some {| t_key := t_key x; t_data := t_data x; t_phase := Writing (skipn n rest) |}) dk) + 0 <= pend_tasks st).
      { intros dk. pose proof (pend_task_step st t x (Some {| t_key := t_key x; t_data := t_data x; t_phase := Writing (skipn n rest) |}) dk N E) as S.
        rewrite Ph in S. cbn [t_phase t_data] in S. lia. }
      destruct (disk st _) as [[]|]; apply S.
    + destruct (tasks st t) as [x|] eqn:E; [|lia]. destruct (t_phase x) as [|[|]|] eqn:Ph; try lia.
      pose proof (pend_task_step st t x (Some {| t_key := t_key x; t_data := t_data x; t_phase := Ready |}) (disk st) N E) as S. rewrite Ph in S. cbn [t_phase] in S. lia.
    + destruct (tasks st t) as [x|] eqn:E; [|lia]. 
      assert (S : pend_tasks (drop_entry (set_task st t None (disk st)) (t_key x)) + 0 <= pend_tasks st).
      { rewrite (pend_tasks_ext (set_task st t None (disk st))); try reflexivity. pose proof (pend_task_step st t x None (disk st) N E) as S. destruct (t_phase x); lia. }
      destruct (t_phase x); [exact S|exact S|lia].
    + destruct (tasks st t) as [x|] eqn:E; [|lia]. destruct (t_phase x); try lia.
      rewrite (pend_tasks_ext (set_task st t None (disk st))); try reflexivity. pose proof (pend_task_step st t x None (disk st) N E) as S. destruct (t_phase x); lia.
    + rewrite (pend_tasks_ext st); auto. lia.
    + rewrite (pend_tasks_ext st); auto. lia.
Qed.
Definition safe (st : state) (evs : list event) : Prop :=
  (forall i r, readers st i = Some r -> live r -> exists D, objs st (r_path r) = Some D /\ r_last r * cs < length D /\ Forall (untouched_by (r_path r)) evs) /\
  (forall i p s e, In (ERead i p s e) evs -> exists D, objs st p = Some D /\ e <= length D /\ Forall (untouched_by p) evs).
Lemma moved_path : forall st net io r, r_path (moved cs st net io r) = r_path r /\ r_last (moved cs st net io r) = r_last r /\
  (live (moved cs st net io r) -> live r).
Proof.
  intros st net io r. assert (F : forall cd, r_path (finish_chunk cs r cd) = r_path r /\ r_last (finish_chunk cs r cd) = r_last r).
  { intros cd. unfold finish_chunk. destruct (Nat.ltb _ _); split; reflexivity. }
  assert (Y : match r_pc r with PDone _ | PErr | PPanic => True | _ => live r end) by (unfold live; destruct (r_pc r); exact Logic.I).
  unfold moved. destruct (r_pc r) as [|g| |cd|[|] cd| | |] eqn:P; auto.
  - destruct (cache st _) as [[|]|]; auto.
  - destruct (disk st g) as [[]|]; auto.
  - destruct (response st net _); auto.
  - destruct (read_request cs r) as [q|]; [destruct (response st net q); auto|]. destruct (F cd). auto.
  - destruct (F cd). auto.
Qed.
Lemma objs_kept : forall st ev p, untouched_by p ev -> objs (step h cs st ev) p = objs st p.
Proof.
  intros st ev p H. destruct ev; try (rewrite objs_stay; [reflexivity|exact Logic.I]).
  - cbn. apply upd_ne. cbn in H. congruence.
  - cbn. apply upd_ne. cbn in H. congruence.
Qed.
Lemma safe_step : forall st ev evs, safe st (ev :: evs) -> safe (step h cs st ev) evs.
Proof.
  intros st ev evs [A B]. split.
  - intros i r Hr Lv. destruct (mover ev) as [j|] eqn:M.
    2:{ rewrite others_stay in Hr by (rewrite M; discriminate). destruct (A i r Hr Lv) as (D & O & L & F). inversion F; subst.
        exists D. rewrite objs_kept by assumption. auto. }
    destruct (Nat.eq_dec i j) as [->|Nj].
    2:{ rewrite others_stay in Hr by (rewrite M; congruence). destruct (A i r Hr Lv) as (D & O & L & F). inversion F; subst.
        exists D. rewrite objs_kept by assumption. auto. }
    destruct ev as [i' q s e|i' net io| | | | | | | | | |]; cbn in M; try discriminate; injection M as ->.
    + destruct (readers st j) as [r0|] eqn:E.
      * assert (X : step h cs st (ERead j q s e) = st) by (cbn [step]; rewrite E; reflexivity). rewrite X in Hr |- *.
        destruct (A j r Hr Lv) as (D & O & L & F). inversion F; subst. exists D. auto.
      * cbn [step] in Hr |- *. rewrite E in Hr |- *. cbn in Hr. rewrite upd_eq in Hr. injection Hr as <-.
        destruct (B j q s e (or_introl eq_refl)) as (D & O & L & F). inversion F; subst. exists D. cbn [objs set_reader].
        revert Lv. unfold start_read. destruct (Nat.ltb e s || Nat.eqb e 0) eqn:X; [intros Lv; exfalso; exact Lv|].
        destruct (Nat.ltb ((e - 1) / cs) (s / cs)); [intros Lv; exfalso; exact Lv|]. intros _. cbn [r_path r_last].
        apply orb_false_iff in X. destruct X as [_ X]. apply Nat.eqb_neq in X.
        split; [exact O|]. split; [|assumption]. pose proof (last_le cs cs_pos e). lia.
    + destruct (readers st j) as [r0|] eqn:E.
      * rewrite (reader_moves h cs st j r0 net io E) in Hr. injection Hr as <-.
        destruct (moved_path st net io r0) as (P1 & P2 & P3). destruct (A j r0 E (P3 Lv)) as (D & O & L & F). inversion F; subst.
        exists D. rewrite P1, P2, objs_kept by assumption. auto.
      * cbn [step] in Hr. rewrite E in Hr. congruence.
  - intros i p s e Hin. destruct (B i p s e (or_intror Hin)) as (D & O & L & F). inversion F; subst. exists D. rewrite objs_kept by assumption. auto.
Qed.
Lemma written_run : forall evs st is, small cs st -> bounded cs st -> shapes cs st -> safe st evs -> NoDup is ->
  (forall i, readers (run h cs st evs) i <> None -> In i is) ->
  counter (m_written h) h cs st evs <= pend_tasks st + sum (map (pend_read st) is) + counter m_missed h cs st evs.
Proof.
  induction evs as [|ev evs IH]; intros st is SM BD SH SF ND Cov; [cbn; lia|].
  cbn [run fold_left counter] in *.
  destruct (shapes_step h cs cs_pos st ev SM BD SH) as [S1 _].
  specialize (IH (step h cs st ev) is (small_step h cs st ev SM) (bounded_step h cs st ev SM BD) S1 (safe_step st ev evs SF) ND Cov).
  assert (W : within st). { intros i r Hr Lv. destruct (proj1 SF i r Hr Lv) as (D & O & L & _). eauto. }
  assert (C : forall i, readers (step h cs st ev) i <> None -> In i is).
  { intros i H. apply Cov. exact (readers_stay_run h cs evs (step h cs st ev) i H). }
  pose proof (written_step st ev is (bd_next cs st BD) W SH ND C) as WS. lia.
Qed.
End Written.

(* there is a list of all reads *)
Lemma reads_list : forall h cs evs o, exists is, all_reads (run h cs (init o) evs) is.
Proof.
  intros h cs evs o.
  assert (G : forall evs st is, all_reads st is -> exists is', all_reads (run h cs st evs) is').
  { clear evs. induction evs as [|ev evs IH]; intros st is A; [exists is; exact A|].
    cbn [run fold_left]. destruct A as [ND A].
    assert (K : exists js, all_reads (step h cs st ev) js).
    { destruct (mover ev) as [i|] eqn:M.
      2:{ exists is. split; [exact ND|]. intros j. rewrite others_stay; [apply A|]. rewrite M. discriminate. }
      destruct (readers (step h cs st ev) i) as [r|] eqn:E.
      - destruct (in_dec Nat.eq_dec i is) as [Hi|Hi].
        + exists is. split; [exact ND|]. intros j. destruct (Nat.eq_dec j i) as [->|N]; [rewrite E; split; [discriminate|intros _; exact Hi]|].
          rewrite others_stay; [apply A|]. rewrite M. congruence.
        + exists (i :: is). split; [constructor; assumption|]. intros j. destruct (Nat.eq_dec j i) as [->|N].
          * rewrite E. split; [discriminate|]. intros _. left. reflexivity.
          * rewrite others_stay by (rewrite M; congruence). split; [intros [X|X]; [congruence|apply A, X]|intros X; right; apply A, X].
      - exists is. split; [exact ND|]. intros j. destruct (Nat.eq_dec j i) as [->|N].
        + rewrite E. split; [|congruence]. intros Hi. apply A in Hi. exfalso. exact (readers_stay h cs st ev i Hi E).
        + rewrite others_stay; [apply A|]. rewrite M. congruence. }
    destruct K as [js K]. exact (IH _ js K). }
  apply (G evs (init o) []). split; [constructor|]. intros i. cbn. split; [intros []|congruence].
Qed.
