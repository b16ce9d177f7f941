(* Proofs about commits. *)
From Coq Require Import List Arith Bool Lia.
From Verif Require Import LakeModel LakeSpec.
Import ListNotations.

Lemma upd_same : forall A k (v : A) f, upd k v f k = v.
Proof. intros. unfold upd. rewrite Nat.eqb_refl. reflexivity. Qed.
Lemma upd_other : forall A k x (v : A) f, x <> k -> upd k v f x = f x.
Proof. intros. unfold upd. destruct (Nat.eqb_spec x k); congruence. Qed.
Ltac upd_case x k := let E := fresh "Q" in let N := fresh "N" in destruct (Nat.eq_dec x k) as [E|N];
  [try rewrite E in *; rewrite ?upd_same in *|rewrite ?(upd_other _ k x) in * by assumption].

Lemma inner_put_creates : forall D (p : nat) (d : D), creates_only (fun s c => match c with PutNew p d => inner_put s p d Create | _ => (s, false) end) (PutNew p d).
Proof.
  intros D p d s. cbn. unfold inner_put. destruct (s p) eqn:E; [auto|]. split; [reflexivity|apply upd_same].
Qed.
Lemma put_creates : forall D cfg (p : nat) (d : D), cfg <> Local true -> creates_only (call_store cfg) (PutNew p d).
Proof.
  intros D cfg p d H s. cbn. pose proof (inner_put_creates D p d s) as P. cbn in P. destruct cfg as [[|]| | |]; try exact P. congruence.
Qed.
Lemma inner_copy_creates : forall D (s : nat -> option D) from to,
  match inner_copy_if_not_exists s from to with
  | (s', true) => s to = None /\ s' to = s from
  | (s', false) => forall p, s' p = s p
  end.
Proof.
  intros. unfold inner_copy_if_not_exists, inner_copy. destruct (s to) eqn:E; [auto|]. destruct (s from) eqn:F; [|auto].
  split; [reflexivity|apply upd_same].
Qed.
Lemma inner_rename_creates : forall D (s : nat -> option D) from to,
  match inner_rename_if_not_exists s from to with
  | (s', true) => s to = None /\ s' to = s from
  | (s', false) => forall p, s' p = s p
  end.
Proof.
  intros. unfold inner_rename_if_not_exists, inner_rename. destruct (s to) eqn:E; [auto|]. destruct (s from) eqn:F; [|auto].
  destruct (Nat.eqb_spec from to); [subst; congruence|]. split; [reflexivity|]. rewrite upd_other by congruence. apply upd_same.
Qed.

(* the log *)
Section Log.
Context {D : Type}.
Variable cfg : config.
Hypothesis Hcfg : cfg <> Local true.
Lemma put_opts_create : forall (s : nat -> option D) p d,
  put_opts cfg s p d Create = match s p with Some _ => (s, false) | None => (upd p (Some d) s, true) end.
Proof. intros. destruct cfg as [[|]| | |]; [congruence| | | |]; unfold put_opts, inner_put; destruct (s p); reflexivity. Qed.
Record LInv (st : lstate D) : Prop := {
  li_log : forall w v d, In (w, v, d) (done st) -> log st v = Some d;
  li_back : forall v d, log st v = Some d -> exists w, In (w, v, d) (done st);
  li_one : NoDup (map (fun x => snd (fst x)) (done st));
  li_next : forall w, next st w = 0 \/ log st (pred (next st w)) <> None;
  li_gap : forall v, log st v <> None -> forall u, u <= v -> log st u <> None }.
Lemma linv_init : LInv lempty.
Proof. constructor; cbn; intros; try contradiction; try discriminate; try constructor; auto; congruence. Qed.
Lemma linv_step : forall st e, LInv st -> LInv (lstep cfg st e).
Proof.
  intros st [w n|w d] I; destruct I as [I1 I2 I3 I4 I5]; cbn [lstep].
  - destruct (log st n) eqn:E; [|constructor; assumption]. constructor; cbn [log next done]; auto.
    intros w'. upd_case w' w; [right; cbn; congruence|apply I4].
  - rewrite put_opts_create. set (v := next st w). destruct (log st v) eqn:E; cbn [fst snd].
    { constructor; cbn [log next done]; auto. }
    constructor; cbn [log next done].
    + intros w' v' d' [H|H]; [injection H as <- <- <-; apply upd_same|]. specialize (I1 _ _ _ H). rewrite upd_other; [exact I1|congruence].
    + intros v' d' H. upd_case v' v; [injection H as <-; exists w; left; reflexivity|]. destruct (I2 _ _ H) as [w' H']. exists w'. right. exact H'.
    + cbn. constructor; [|exact I3]. intros H. apply in_map_iff in H. destruct H as ([[w' v'] d'] & E' & H). cbn in E'. subst v'.
      apply I1 in H. congruence.
    + intros w'. destruct (I4 w') as [H|H]; [left; exact H|right]. upd_case (pred (next st w')) v; [discriminate|exact H].
    + intros v' H u Hu. upd_case u v; [discriminate|]. upd_case v' v.
      * destruct (I4 w) as [Z|Z]; [exfalso; unfold v in *; lia|]. apply (I5 _ Z). fold v. lia.
      * apply (I5 v'); assumption.
Qed.
Lemma linv_run : forall es st, LInv st -> LInv (lrun cfg st es).
Proof. induction es as [|e es IH]; intros st H; [exact H|]. cbn. apply IH, linv_step, H. Qed.
Lemma log_stable_step : forall (st : lstate D) e v d, log st v = Some d -> log (lstep cfg st e) v = Some d.
Proof.
  intros st [w n|w d'] v d H; cbn [lstep].
  - destruct (log st n); exact H.
  - rewrite put_opts_create. destruct (log st (next st w)) eqn:E; cbn [fst log]; [exact H|]. upd_case v (next st w); congruence.
Qed.
Lemma log_stable : forall es (st : lstate D) v d, log st v = Some d -> log (lrun cfg st es) v = Some d.
Proof. induction es as [|e es IH]; intros st v d H; [exact H|]. cbn. apply IH, log_stable_step, H. Qed.
End Log.

(* Iceberg *)
Section Ice.
Variable sch : nat -> list field.

Definition newv (h : option nat) : nat := match h with Some x => S x | None => 0 end.
Record IInv (st : istate) : Prop := {
  ii_hint : forall h, hint st = Some h -> forall v, v <= h -> metas st v <> None;
  ii_top : forall v, metas st v <> None -> v <= newv (hint st);
  (* the version after the hint has an author who has not set the hint *)
  ii_read : forall w h, inserts st w = HintRead (Some h) -> exists h', hint st = Some h' /\ h <= h';
  ii_based : forall w h m, inserts st w = Based h m ->
      (match h with Some x => metas st x = Some m /\ exists h', hint st = Some h' /\ x <= h' | None => contents m = [] /\ schema m = sch w end);
  ii_aligned : forall w h m, inserts st w = Based (Some h) m -> is_schema_aligned (sch w) (schema m) = true;
  ii_written : forall w v, inserts st w = MetaWritten v -> v = newv (hint st) /\ exists m, metas st v = Some m /\ In w (contents m);
  ii_done : forall w v, inserts st w = Succeeded v -> (exists h, hint st = Some h /\ v <= h) /\ exists m, metas st v = Some m /\ In w (contents m);
  ii_one : forall w w' v, inserts st w = MetaWritten v -> inserts st w' = MetaWritten v -> w = w';
  ii_chain : forall v m m', metas st v = Some m -> metas st (S v) = Some m' -> schema m' = schema m /\ exists l, contents m' = contents m ++ l;
  ii_in : forall w v m, metas st v = Some m -> In w (contents m) ->
      match inserts st w with MetaWritten u | Succeeded u => u <= v | Failed => True | _ => False end
}.
Lemma iinv_init : forall st, well_formed st -> IInv st.
Proof.
  intros st (W1 & W2 & W3 & W4). constructor; intros.
  - rewrite H in W3. apply W3. exact H0.
  - destruct (hint st); [apply W3 in H; cbn; lia|rewrite W3 in H; congruence].
  - rewrite W1 in H. discriminate.
  - rewrite W1 in H. discriminate.
  - rewrite W1 in H. discriminate.
  - rewrite W1 in H. discriminate.
  - rewrite W1 in H. discriminate.
  - rewrite W1 in H. discriminate.
  - split; [apply (W4 v); assumption|]. exists []. rewrite (W2 _ _ H), (W2 _ _ H0). reflexivity.
  - rewrite (W2 _ _ H) in H0. contradiction.
Qed.
(* steps that change only the control state of one insert, to a state in which it has no version *)
Lemma iinv_pc : forall st w p, IInv st ->
  match p with
  | Idle => False
  | HintRead (Some h) => exists h', hint st = Some h' /\ h <= h'
  | HintRead None => True
  | Based h m =>
      match h with Some x => (metas st x = Some m /\ exists h', hint st = Some h' /\ x <= h') /\ is_schema_aligned (sch w) (schema m) = true
                 | None => contents m = [] /\ schema m = sch w end
  | Failed => True
  | _ => False
  end ->
  match inserts st w with Idle | HintRead _ | Based _ _ => True | MetaWritten _ => p = Failed | _ => p = Failed end ->
  (forall v, inserts st w <> Succeeded v) ->
  IInv (set_pc st w p).
Proof.
  intros st w p I Hp Hw Hs. destruct I as [I1 I2 I3 I4 I5 I6 I7 I8 I9 I10].
  constructor; cbn [set_pc metas hint inserts]; auto.
  - intros w' h H. upd_case w' w; [subst p; exact Hp|apply (I3 w'); exact H].
  - intros w' h m H. upd_case w' w; [subst p; destruct h; [apply Hp|exact Hp]|apply (I4 w'); exact H].
  - intros w' h m H. upd_case w' w; [subst p; apply Hp|apply (I5 w' h); exact H].
  - intros w' v H. upd_case w' w; [subst p; contradiction|apply (I6 w'); exact H].
  - intros w' v H. upd_case w' w; [subst p; contradiction|apply (I7 w'); exact H].
  - intros w1 w2 v H1 H2. upd_case w1 w; [subst p; contradiction|]. upd_case w2 w; [subst p; contradiction|]. apply (I8 w1 w2 v); assumption.
  - intros w' v m Hm Hin. specialize (I10 w' v m Hm Hin). upd_case w' w; [|exact I10].
    destruct (inserts st w) eqn:E; try contradiction.
    + subst p. exact Logic.I.
    + exfalso. apply (Hs v0). reflexivity.
    + subst p. exact Logic.I.
Qed.
Lemma iinv_step : forall st e, IInv st -> IInv (istep sch st e).
Proof.
  intros st e I. pose proof I as [I1 I2 I3 I4 I5 I6 I7 I8 I9 I10]. destruct e as [w|w|w|w|w]; cbn [istep].
  - destruct (inserts st w) eqn:E; try exact I. apply iinv_pc; auto; try (rewrite E; auto; discriminate).
    destruct (hint st) eqn:Eh; [exists n; auto|exact Logic.I].
  - destruct (inserts st w) as [|[h|]| | | |] eqn:E; try exact I.
    + destruct (metas st h) eqn:Em; [destruct (is_schema_aligned _ _) eqn:Ea|]; apply iinv_pc; auto; try (rewrite E; auto; discriminate).
      split; [split; [exact Em|apply (I3 w); exact E]|exact Ea].
    + apply iinv_pc; auto; try (rewrite E; auto; discriminate).
  - destruct (inserts st w) as [| |h m| | |] eqn:E; try exact I. fold (newv h).
    destruct (metas st (newv h)) eqn:Em; [apply iinv_pc; auto; rewrite E; auto; discriminate|].
    (* a new version: then the hint is still the one this insert has read *)
    assert (Hh : h = hint st).
    { pose proof (I4 _ _ _ E) as B. destruct h as [x|].
      - destruct B as (_ & h' & Eh & Hle). rewrite Eh. f_equal. destruct (Nat.eq_dec x h') as [|N]; [assumption|].
        exfalso. apply (I1 h' Eh (S x)); [lia|exact Em].
      - destruct (hint st) as [h'|] eqn:Eh; [|reflexivity]. exfalso. apply (I1 h' eq_refl 0); [lia|exact Em]. }
    subst h. set (v := newv (hint st)) in *.
    assert (Hnew : forall u, metas st u <> None -> u < v).
    { intros u Hu. pose proof (I2 u Hu) as L. fold v in L. destruct (Nat.eq_dec u v) as [->|]; [congruence|lia]. }
    constructor; cbn [metas hint inserts].
    + intros h Hh u Hu. upd_case u v; [discriminate|apply (I1 h); assumption].
    + intros u Hu. upd_case u v; [apply le_n|apply I2; exact Hu].
    + intros w' h H. upd_case w' w; [discriminate|apply (I3 w'); exact H].
    + intros w' h m' H. upd_case w' w; [discriminate|]. pose proof (I4 w' h m' H) as B. destruct h as [x|]; [|exact B].
      destruct B as [B1 B2]. split; [|exact B2]. rewrite upd_other; [exact B1|]. intros ->. congruence.
    + intros w' h m' H. upd_case w' w; [discriminate|]. apply (I5 w' h m' H).
    + intros w' u H. upd_case w' w.
      * injection H as <-. split; [reflexivity|]. eexists. split; [apply upd_same|]. cbn. apply in_or_app. right. left. reflexivity.
      * exfalso. destruct (I6 w' u H) as (-> & m' & Hm' & _). fold v in Hm'. congruence.
    + intros w' u H. upd_case w' w; [discriminate|]. destruct (I7 w' u H) as (A & m' & Hm' & Hin). split; [exact A|].
      exists m'. split; [|exact Hin]. rewrite upd_other; [exact Hm'|]. intros ->. congruence.
    + intros w1 w2 u H1 H2. upd_case w1 w; upd_case w2 w; auto.
      * exfalso. destruct (I6 w2 u H2) as (-> & m' & Hm' & _). fold v in Hm'. congruence.
      * exfalso. destruct (I6 w1 u H1) as (-> & m' & Hm' & _). fold v in Hm'. congruence.
      * apply (I8 w1 w2 u); assumption.
    + intros u m1 m2 H1 H2. upd_case u v.
      * exfalso. rewrite upd_other in H2 by lia. assert (X : metas st (S v) <> None) by congruence. apply Hnew in X. lia.
      * upd_case (S u) v; [|apply (I9 u); assumption]. injection H2 as <-. cbn [schema contents].
        pose proof (I4 _ _ _ E) as B. destruct (hint st) as [x|] eqn:Eh; cbn in v; [|discriminate].
        injection Q as ->. destruct B as [B _]. assert (m1 = m) by congruence. subst m1. split; [reflexivity|]. exists [w]. reflexivity.
    + intros w' u m' Hm' Hin. upd_case w' w.
      * upd_case u v; [apply le_n|]. specialize (I10 w u m' Hm' Hin). rewrite E in I10. contradiction.
      * upd_case u v; [|apply (I10 w' u m'); assumption]. injection Hm' as <-. cbn in Hin. apply in_app_or in Hin.
        destruct Hin as [Hin|[->|[]]]; [|congruence].
        pose proof (I4 _ _ _ E) as B. destruct (hint st) as [x|] eqn:Eh; [|destruct B as [B _]; rewrite B in Hin; contradiction].
        destruct B as [B _]. specialize (I10 w' x m B Hin). destruct (inserts st w'); try exact I10; unfold v; cbn; lia.
  - destruct (inserts st w) as [| | |v| |] eqn:E; try exact I.
    destruct (I6 w v E) as (Ev & m & Hm & Hin).
    constructor; cbn [metas hint inserts].
    + intros h Hh u Hu. injection Hh as <-. destruct (Nat.eq_dec u v) as [->|N]; [congruence|].
      subst v. destruct (hint st) as [x|] eqn:Eh; cbn in *; [apply (I1 x eq_refl); lia|lia].
    + intros u Hu. apply I2 in Hu. subst v. cbn in *. lia.
    + intros w' h H. upd_case w' w; [discriminate|]. destruct (I3 w' h H) as (h' & Eh & L). exists v. split; [reflexivity|]. rewrite Eh in Ev. cbn in Ev. lia.
    + intros w' h m' H. upd_case w' w; [discriminate|]. pose proof (I4 w' h m' H) as B. destruct h as [x|]; [|exact B].
      destruct B as (B1 & h' & Eh & L). split; [exact B1|]. exists v. split; [reflexivity|]. rewrite Eh in Ev. cbn in Ev. lia.
    + intros w' h m' H. upd_case w' w; [discriminate|]. apply (I5 w' h m' H).
    + intros w' u H. upd_case w' w; [discriminate|]. exfalso. destruct (I6 w' u H) as (Eu & _).
      apply N. apply (I8 w' w u); [exact H|]. congruence.
    + intros w' u H. upd_case w' w.
      * injection H as <-. split; [exists v; auto|]. exists m. auto.
      * destruct (I7 w' u H) as ((h & Eh & L) & R). split; [|exact R]. exists v. split; [reflexivity|]. rewrite Eh in Ev. cbn in Ev. lia.
    + intros w1 w2 u H1 H2. upd_case w1 w; [discriminate|]. upd_case w2 w; [discriminate|]. apply (I8 w1 w2 u); assumption.
    + exact I9.
    + intros w' u m' Hm' Hin'. specialize (I10 w' u m' Hm' Hin'). upd_case w' w; [|exact I10]. rewrite E in I10. exact I10.
  - destruct (inserts st w) eqn:E; try exact I; apply iinv_pc; auto; rewrite E; auto; discriminate.
Qed.
Lemma iinv_run : forall es st, IInv st -> IInv (irun sch st es).
Proof. induction es as [|e es IH]; intros st H; [exact H|]. cbn. apply IH, iinv_step, H. Qed.

Lemma metas_stable_step : forall st e v m, metas st v = Some m -> metas (istep sch st e) v = Some m.
Proof.
  intros st e v m H. destruct e as [w|w|w|w|w]; cbn [istep]; destruct (inserts st w) as [|[h|]|h b|u|u|]; try exact H.
  - destruct (metas st h) as [x|]; [destruct (is_schema_aligned _ _)|]; exact H.
  - destruct (metas st (match h with Some x => S x | None => 0 end)) eqn:E; [exact H|]. cbn [metas].
    upd_case v (match h with Some x => S x | None => 0 end); congruence.
Qed.
Lemma metas_stable : forall es st v m, metas st v = Some m -> metas (irun sch st es) v = Some m.
Proof. induction es as [|e es IH]; intros st v m H; [exact H|]. cbn. apply IH, metas_stable_step, H. Qed.
Lemma hint_mono_step : forall st e h, IInv st -> hint st = Some h -> exists h', hint (istep sch st e) = Some h' /\ h <= h'.
Proof.
  intros st e h I H. destruct e as [w|w|w|w|w]; cbn [istep]; destruct (inserts st w) as [|[x|]|x b|u|u|] eqn:E; eauto.
  - destruct (metas st x) as [y|]; [destruct (is_schema_aligned _ _)|]; eauto.
  - destruct (metas st _); eauto.
  - cbn [hint]. exists u. split; [reflexivity|]. destruct (ii_written st I w u E) as (-> & _). rewrite H. cbn. lia.
Qed.
Lemma hint_mono : forall es st h, IInv st -> hint st = Some h -> exists h', hint (irun sch st es) = Some h' /\ h <= h'.
Proof.
  induction es as [|e es IH]; intros st h I H; [exists h; auto|]. cbn.
  destruct (hint_mono_step st e h I H) as (h1 & H1 & L1). destruct (IH _ h1 (iinv_step _ e I) H1) as (h2 & H2 & L2). exists h2. split; [exact H2|lia].
Qed.
Lemma chain_prefix : forall st, IInv st -> forall k v m m', metas st v = Some m -> metas st (v + k) = Some m' ->
  schema m' = schema m /\ exists l, contents m' = contents m ++ l.
Proof.
  intros st I k. induction k as [|k IH]; intros v m m' H H'.
  - rewrite Nat.add_0_r in H'. assert (m' = m) by congruence. subst m'. split; [reflexivity|]. exists []. symmetry. apply app_nil_r.
  - destruct (metas st (v + k)) as [m1|] eqn:E.
    + destruct (IH v m m1 H E) as (S1 & l1 & C1). rewrite Nat.add_succ_r in H'.
      destruct (ii_chain st I (v + k) m1 m' E H') as (S2 & l2 & C2). split; [congruence|]. exists (l1 ++ l2). rewrite C2, C1, app_assoc. reflexivity.
    + exfalso. assert (X : metas st (v + S k) <> None) by congruence. apply (ii_top st I) in X.
      destruct (hint st) as [h|] eqn:Eh; cbn in X; [|lia]. apply (ii_hint st I h Eh (v + k)); [lia|exact E].
Qed.
Lemma pc_succeeded_stays : forall es st w v, inserts st w = Succeeded v -> inserts (irun sch st es) w = Succeeded v.
Proof.
  induction es as [|e es IH]; intros st w v H; [exact H|]. cbn. apply IH.
  destruct e as [x|x|x|x|x]; cbn [istep]; destruct (inserts st x) as [|[y|]|y b|u|u|] eqn:E; try exact H;
    try (cbn; rewrite upd_other; [exact H|congruence]).
  - destruct (metas st y) as [z|]; [destruct (is_schema_aligned _ _)|]; cbn; rewrite upd_other; congruence.
  - destruct (metas st _); cbn; rewrite upd_other; congruence.
Qed.

(* every insert once, and with a schema that fits *)
Lemma aligned_refl : forall s, is_schema_aligned s s = true.
Proof.
  intros s. unfold is_schema_aligned. rewrite Nat.eqb_refl. cbn. induction s as [|f s IH]; [reflexivity|]. cbn.
  rewrite Nat.eqb_refl, IH. destruct (required f); reflexivity.
Qed.
Definition IFit (st : istate) : Prop := forall v m, metas st v = Some m ->
  NoDup (contents m) /\ forall w, In w (contents m) -> is_schema_aligned (sch w) (schema m) = true.
Lemma ifit_init : forall st, well_formed st -> IFit st.
Proof. intros st (_ & W2 & _) v m H. rewrite (W2 v m H). split; [constructor|contradiction]. Qed.
Lemma ifit_step : forall st e, IInv st -> IFit st -> IFit (istep sch st e).
Proof.
  intros st e I F. destruct e as [w|w|w|w|w]; cbn [istep]; destruct (inserts st w) as [|[h|]|h b|u|u|] eqn:E; try exact F.
  - destruct (metas st h) as [x|]; [destruct (is_schema_aligned _ _)|]; exact F.
  - fold (newv h). destruct (metas st (newv h)) eqn:Em; [exact F|]. intros v m H. cbn [metas] in H. upd_case v (newv h); [|apply (F v m H)].
    injection H as <-. cbn [contents schema]. pose proof (ii_based st I w h b E) as B. destruct h as [x|].
    + destruct B as [B _]. destruct (F x b B) as [F1 F2]. split.
      * apply NoDup_rev in F1. rewrite <- (rev_involutive (contents b ++ [w])). apply NoDup_rev. rewrite rev_unit. constructor; [|exact F1].
        rewrite <- in_rev. intros Hin. pose proof (ii_in st I w x b B Hin) as X. rewrite E in X. exact X.
      * intros w' Hin. apply in_app_or in Hin. destruct Hin as [Hin|[<-|[]]]; [apply F2; exact Hin|]. apply (ii_aligned st I w x b E).
    + destruct B as [B1 B2]. rewrite B1. cbn. split; [repeat constructor; intros []|]. intros w' [<-|[]]. rewrite B2. apply aligned_refl.
Qed.
Lemma ifit_run : forall es st, IInv st -> IFit st -> IFit (irun sch st es).
Proof. induction es as [|e es IH]; intros st I F; [exact F|]. cbn. apply IH; [apply iinv_step; exact I|apply ifit_step; assumption]. Qed.

(* the author of a version is its last insert *)
Definition ILast (st : istate) : Prop := forall w v, inserts st w = MetaWritten v \/ inserts st w = Succeeded v ->
  exists m l, metas st v = Some m /\ contents m = l ++ [w].
Lemma ilast_step : forall st e, ILast st -> ILast (istep sch st e).
Proof.
  intros st e L.
  assert (G : forall x p, (match p with MetaWritten _ | Succeeded _ => False | _ => True end) -> ILast (set_pc st x p)).
  { intros x p Hp w v H. cbn in *. upd_case w x; [destruct H; subst p; contradiction|apply L; exact H]. }
  destruct e as [x|x|x|x|x]; cbn [istep]; destruct (inserts st x) as [|[h|]|h b|u|u|] eqn:E; try exact L; try (apply G; exact Logic.I).
  - destruct (metas st h) as [y|]; [destruct (is_schema_aligned _ _)|]; apply G; exact Logic.I.
  - fold (newv h). destruct (metas st (newv h)) eqn:Em; [apply G; exact Logic.I|]. intros w v H. cbn [inserts metas] in *. upd_case w x.
    + destruct H as [H|H]; [injection H as <-|discriminate]. rewrite upd_same. eexists _, _. split; reflexivity.
    + destruct (L w v H) as (m & l & Hm & Hc). exists m, l. split; [|exact Hc]. rewrite upd_other; [exact Hm|congruence].
  - intros w v H. cbn [inserts metas] in *. upd_case w x; [|apply L; exact H]. destruct H as [H|H]; [discriminate|injection H as <-]. apply L. auto.
Qed.
Lemma one_per_version : forall st es w w' v, well_formed st ->
  inserts (irun sch st es) w = Succeeded v -> inserts (irun sch st es) w' = Succeeded v -> w = w'.
Proof.
  intros st es w w' v (W & _) H H'. assert (L : ILast (irun sch st es)).
  { assert (L0 : ILast st) by (intros x u [X|X]; rewrite W in X; discriminate). clear - L0. revert st L0.
    induction es as [|e es IH]; intros st L; [exact L|]. cbn. apply IH, ilast_step, L. }
  destruct (L w v (or_intror H)) as (m & l & M & C). destruct (L w' v (or_intror H')) as (m' & l' & M' & C').
  assert (m = m') by congruence. subst m'. rewrite C in C'. apply app_inj_tail in C'. apply C'.
Qed.

(* a version without its hint stops everything *)
Definition stuck (st : istate) (ho : option nat) : Prop :=
  hint st = ho /\ metas st (newv ho) <> None /\ (forall w v, inserts st w <> MetaWritten v) /\
  (forall w x m, inserts st w = Based x m -> metas st (newv x) <> None).
Lemma stuck_step : forall st e h, IInv st -> stuck st h -> stuck (istep sch st e) h /\
  (forall w v, inserts (istep sch st e) w = Succeeded v -> inserts st w = Succeeded v).
Proof.
  intros st e h I (S1 & S2 & S3 & S4).
  assert (G : forall w p, (match p with MetaWritten _ | Succeeded _ => False | Based x _ => metas st (newv x) <> None | _ => True end) ->
     stuck (set_pc st w p) h /\ (forall w' v, inserts (set_pc st w p) w' = Succeeded v -> inserts st w' = Succeeded v)).
  { intros w p Hp. split.
    - split; [exact S1|]. split; [exact S2|]. cbn. split.
      + intros w' v H. upd_case w' w; [subst p; contradiction|apply (S3 w' v H)].
      + intros w' x m H. upd_case w' w; [subst p; exact Hp|apply (S4 w' x m H)].
    - intros w' v H. cbn in H. upd_case w' w; [subst p; contradiction|exact H]. }
  assert (Base : stuck st h /\ (forall w v, inserts st w = Succeeded v -> inserts st w = Succeeded v)) by (repeat split; auto).
  assert (Low : forall u, u <= newv h -> metas st u <> None).
  { intros u Hu. destruct (Nat.eq_dec u (newv h)) as [->|N]; [exact S2|]. destruct h as [h|]; cbn in *; [|lia]. apply (ii_hint st I h S1). lia. }
  destruct e as [w|w|w|w|w]; cbn [istep]; destruct (inserts st w) as [|[x|]|x b|u|u|] eqn:E; try exact Base; try (apply G; exact Logic.I).
  - destruct (metas st x) as [y|] eqn:Em; [destruct (is_schema_aligned _ _)|]; apply G; try exact Logic.I. cbn.
    destruct (ii_read st I w x E) as (h' & Eh & L). apply Low. rewrite <- S1, Eh. cbn. lia.
  - apply G. cbn. apply Low. lia.
  - fold (newv x). pose proof (S4 w x b E) as B. destruct (metas st (newv x)); [apply G; exact Logic.I|congruence].
  - exfalso. apply (S3 w u E).
Qed.
Lemma stuck_run : forall es st h, IInv st -> stuck st h -> stuck (irun sch st es) h /\
  (forall w v, inserts (irun sch st es) w = Succeeded v -> inserts st w = Succeeded v).
Proof.
  induction es as [|e es IH]; intros st h I S; [split; auto|]. cbn.
  destruct (stuck_step st e h I S) as [S1 S2]. destruct (IH _ h (iinv_step _ e I) S1) as [S3 S4]. split; [exact S3|]. auto.
Qed.
Lemma crash_stuck : forall st w, well_formed st ->
  match hint st with Some h => forall m, metas st h = Some m -> is_schema_aligned (sch w) (schema m) = true | None => True end ->
  stuck (irun sch st [IHint w; IBase w; IMeta w; IStop w]) (hint st) /\
  forall w', inserts (irun sch st [IHint w; IBase w; IMeta w; IStop w]) w' = if Nat.eqb w' w then Failed else Idle.
Proof.
  intros st w W Ha. pose proof (iinv_init st W) as I. destruct W as (W1 & W2 & W3 & W4).
  assert (Hn : metas st (newv (hint st)) = None).
  { destruct (hint st) as [h|]; cbn; [|apply W3]. destruct (metas st (S h)) eqn:E; [|reflexivity].
    exfalso. assert (X : metas st (S h) <> None) by congruence. apply W3 in X. lia. }
  cbn [irun fold_left]. unfold istep at 4 8. rewrite (W1 w). unfold istep at 3 6. cbn [set_pc inserts metas hint]. rewrite upd_same.
  assert (K : forall b, let st' := istep sch (istep sch (set_pc (set_pc st w (HintRead (hint st))) w (Based (hint st) b)) (IMeta w)) (IStop w) in
     stuck st' (hint st) /\ forall w', inserts st' w' = if Nat.eqb w' w then Failed else Idle).
  { intros b. cbn zeta. unfold istep at 2 4. cbn [set_pc inserts metas hint]. rewrite upd_same. fold (newv (hint st)). rewrite Hn.
    unfold istep. cbn [set_pc inserts metas hint]. rewrite upd_same. cbn [set_pc inserts metas hint].
    assert (P : forall w', upd w Failed (upd w (MetaWritten (newv (hint st))) (upd w (Based (hint st) b) (upd w (HintRead (hint st)) (inserts st)))) w' =
                if Nat.eqb w' w then Failed else Idle).
    { intros w'. unfold upd. destruct (Nat.eqb w' w); [reflexivity|apply W1]. }
    split; [|exact P]. split; [reflexivity|]. cbn [set_pc inserts metas hint]. split; [rewrite upd_same; discriminate|]. split.
    - intros w' v. rewrite P. destruct (Nat.eqb w' w); discriminate.
    - intros w' x m. rewrite P. destruct (Nat.eqb w' w); discriminate. }
  destruct (hint st) as [h|] eqn:Eh.
  - destruct (metas st h) as [m|] eqn:Em; [|exfalso; apply (ii_hint st I h Eh h); [lia|exact Em]].
    rewrite (Ha m eq_refl). apply K.
  - apply K.
Qed.
Definition IOwn (st : istate) : Prop := metas st (newv (hint st)) <> None -> exists w, inserts st w = MetaWritten (newv (hint st)).
Lemma iown_step : forall st e, IInv st -> IOwn st -> match e with IStop w => forall v, inserts st w <> MetaWritten v | _ => True end -> IOwn (istep sch st e).
Proof.
  intros st e I O He.
  assert (G : forall x p, (forall v, inserts st x <> MetaWritten v) -> IOwn (set_pc st x p)).
  { intros x p Hp H. cbn in *. destruct (O H) as [w Hw]. exists w. upd_case w x; [exfalso; apply (Hp _ Hw)|exact Hw]. }
  destruct e as [x|x|x|x|x]; cbn [istep]; destruct (inserts st x) as [|[h|]|h b|u|u|] eqn:E; try exact O; try (apply G; intros v X; congruence).
  - destruct (metas st h) as [y|]; [destruct (is_schema_aligned _ _)|]; apply G; intros v X; congruence.
  - fold (newv h). destruct (metas st (newv h)) eqn:Em; [apply G; intros v X; congruence|]. intros H. cbn [inserts metas hint] in *.
    upd_case (newv (hint st)) (newv h).
    + exists x. apply upd_same.
    + destruct (O H) as [w Hw]. exists w. rewrite upd_other; [exact Hw|congruence].
  - intros H. cbn [inserts metas hint newv] in *. exfalso. pose proof (ii_top st I _ H) as T. destruct (ii_written st I x u E) as [-> _]. lia.
Qed.
Lemma iown_run : forall es st, IInv st -> IOwn st -> stops_harmless sch st es -> IOwn (irun sch st es).
Proof.
  induction es as [|e es IH]; intros st I O H; [exact O|]. destruct H as [H1 H2]. cbn. apply IH; [apply iinv_step, I|apply iown_step; assumption|exact H2].
Qed.
(* a single insert with nothing in the way *)
Lemma solo_succeeds : forall st w, IInv st -> inserts st w = Idle -> metas st (newv (hint st)) = None ->
  match hint st with Some h => forall m, metas st h = Some m -> is_schema_aligned (sch w) (schema m) = true | None => True end ->
  inserts (irun sch st [IHint w; IBase w; IMeta w; ISetHint w]) w = Succeeded (newv (hint st)).
Proof.
  intros st w I Hi Hn Ha. cbn [irun fold_left]. unfold istep at 4. rewrite Hi. unfold istep at 3. cbn [set_pc inserts metas hint]. rewrite upd_same.
  destruct (hint st) as [h|] eqn:Eh.
  - destruct (metas st h) as [m|] eqn:Em; [|exfalso; apply (ii_hint st I h Eh h); [lia|exact Em]].
    rewrite (Ha m eq_refl). unfold istep at 2. cbn [set_pc inserts metas hint]. rewrite upd_same. cbn in Hn. rewrite Hn.
    unfold istep. cbn [inserts]. rewrite upd_same. cbn [inserts]. rewrite upd_same. reflexivity.
  - unfold istep at 2. cbn [set_pc inserts metas hint]. rewrite upd_same. cbn in Hn. rewrite Hn.
    unfold istep. cbn [inserts]. rewrite upd_same. cbn [inserts]. rewrite upd_same. reflexivity.
Qed.
End Ice.

(* the schema check *)
Lemma fields_ok_fit : forall old new r, length old = length new -> fields_ok old new = true -> row_fits new r -> row_fits old r.
Proof.
  induction old as [|o old IH]; intros new r Hl H F; destruct new as [|n new]; try discriminate; [exact F|].
  cbn in H. apply andb_true_iff in H. destruct H as [H H2]. apply andb_true_iff in H. destruct H as [H0 H1]. apply Nat.eqb_eq in H1.
  inversion F as [|f v l l' Fv Fr]; subst. constructor; [|apply (IH new); auto].
  destruct v as [t|]; [congruence|]. rewrite Fv in H0. destruct (required o); [discriminate|reflexivity].
Qed.
Lemma fields_not_ok : forall old new, length old = length new -> fields_ok old new = false ->
  exists r, row_fits new r /\ ~ row_fits old r.
Proof.
  induction old as [|o old IH]; intros new Hl H; destruct new as [|n new]; try discriminate.
  cbn in H. assert (T : row_fits new (map (fun f => Some (ftype f)) new)).
  { clear. induction new as [|f new IH]; constructor; auto. }
  destruct (required o && negb (required n)) eqn:E1; [|destruct (Nat.eqb_spec (ftype o) (ftype n)) as [E2|E2]]; cbn in H.
  - apply andb_true_iff in E1. destruct E1 as [R1 R2]. apply negb_true_iff in R2. exists (None :: map (fun f => Some (ftype f)) new).
    split; [constructor; [exact R2|exact T]|]. intros X. inversion X. congruence.
  - destruct (IH new ltac:(cbn in Hl; lia) H) as (r & F1 & F2). exists (Some (ftype n) :: r).
    split; [constructor; [reflexivity|exact F1]|]. intros X. inversion X. contradiction.
  - exists (map (fun f => Some (ftype f)) (n :: new)). split; [cbn; constructor; [reflexivity|exact T]|]. intros X. inversion X. congruence.
Qed.
