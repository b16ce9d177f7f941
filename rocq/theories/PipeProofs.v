(* The invariant of PipeProps.v: stored table, then the queued items one after the other, give the table of the changes received. *)
From Coq Require Import List Arith ZArith Bool Lia Permutation.
From Verif Require Import SyncDataModel SyncDataSpec SyncAbsSquash SyncSquashProofs SyncAbsMerge SyncMergeProofs SyncMergeMain SyncApplyProofs SyncPruneProofs SyncFlushProofs SyncDataMain SyncResquash PipeModel PipeSpec.
Import ListNotations.

(* messages that the queue takes for compatible have the same number of columns *)
Lemma compatible_more : forall a b, compatible a b = true -> exists more, a = b ++ more \/ b = a ++ more.
Proof.
  unfold compatible. induction a as [|x a IH]; intros [|y b] H; [exists []; left; reflexivity|exists (y :: b); right; reflexivity|exists (x :: a); left; reflexivity|].
  cbn [combine forallb fst snd] in H. apply andb_true_iff in H as [H1 H2]. apply andb_true_iff in H1 as [H1 H3]. apply andb_true_iff in H1 as [H1 H4].
  apply Nat.eqb_eq in H1. apply Nat.eqb_eq in H3. apply role_eqb_eq in H4. assert (E : x = y) by (destruct x, y; cbn in *; congruence). subst y.
  destruct (IH b H2) as (more & [E|E]); exists more; [left|right]; cbn [app]; rewrite <- E; reflexivity.
Qed.
Lemma widths_of ms : same_widths ms -> forall a b, In a ms -> In b ms -> compatible (fst a) (fst b) = true -> length (fst a) = length (fst b).
Proof.
  intros SW a b Ia Ib H. destruct (compatible_more _ _ H) as (more & [E|E]).
  - rewrite (SW a b more Ia Ib E), app_nil_r in E. rewrite E. reflexivity.
  - rewrite (SW b a more Ib Ia E), app_nil_r in E. rewrite E. reflexivity.
Qed.
Local Arguments change_of : simpl never.

Notation tab := (list value -> option (list value)) (only parsing).
Definition same (t t' : tab) : Prop := forall k, t k = t' k.

(* ---- tables that agree ---- *)
Lemma same_apply1 c t t' : same t t' -> same (apply1 c t) (apply1 c t').
Proof. intros H k. unfold apply1, old_row. destruct (ch_old c) as [o|]; rewrite ?(H o), (H k); reflexivity. Qed.
Lemma same_apply cs : forall t t', same t t' -> same (apply_all cs t) (apply_all cs t').
Proof. induction cs as [|c cs IH]; intros t t' H; [exact H|]. apply (IH (apply1 c t) (apply1 c t')). apply same_apply1. exact H. Qed.
Lemma same_valid cs : forall t t', same t t' -> valid_stream t cs -> valid_stream t' cs.
Proof.
  induction cs as [|c cs IH]; intros t t' H V; [exact I|]. destruct V as [[V1 V2] V3]. split; [split|].
  - intros o E. rewrite <- H. exact (V1 o E).
  - intros n E. rewrite <- H. exact (V2 n E).
  - apply (IH (apply1 c t)); [apply same_apply1; exact H|exact V3].
Qed.
Lemma same_wide w t t' : same t t' -> wide w t -> wide w t'.
Proof. intros H W k vs E. apply (W k). rewrite H. exact E. Qed.
Lemma same_trans t1 t2 t3 : same t1 t2 -> same t2 t3 -> same t1 t3.
Proof. intros A B k. rewrite A. apply B. Qed.
Lemma same_sym t1 t2 : same t1 t2 -> same t2 t1.
Proof. intros A k. symmetry. apply A. Qed.
Lemma at_once_same cs t t1 t2 : same t1 t2 -> at_once cs t t1 -> at_once cs t t2.
Proof. intros H A k. destruct (A k) as (A1 & A2 & A3). rewrite <- (H k). exact (conj A1 (conj A2 A3)). Qed.
Lemma at_once_same_l cs t t' t1 : same t t' -> at_once cs t t1 -> at_once cs t' t1.
Proof.
  intros H A k. destruct (A k) as (A1 & A2 & A3). rewrite <- (H k). split; [|exact (conj A2 A3)]. intros c I E. rewrite (A1 c I E). f_equal. f_equal. unfold old_row. destruct (ch_old c) as [o|]; [apply H|reflexivity].
Qed.
Lemma net_same cs t t' : same t t' -> net t cs -> net t' cs.
Proof. intros H [N1 N2 N3]. split; [exact N1| |]; [intros c k I E; rewrite <- H; exact (N2 c k I E)|intros c k I E; rewrite <- H; exact (N3 c k I E)]. Qed.

Section Inv.
Variables (pks vals : list nat) (C : change -> Prop) (again : bool).
Hypothesis HC : closed C.
Hypothesis KC : again = true -> forall c, C c -> keeps_key c.
Hypothesis SC : forall c, C c -> length (ch_set c) = length vals.
Definition as_item (p : pend) : list column * list rbatch := (p_schema p, p_data p).
Definition p_changes (p : pend) : list change := item_changes pks vals (as_item p).
Definition usable_item (p : pend) : Prop := good_item pks (as_item p) /\ names_of (p_schema p) Changed = [] /\ (forall c, In c (p_changes p) -> C c).

Inductive Q : tab -> list pend -> tab -> Prop :=
| Qnil t t' : same t t' -> Q t [] t'
| Qraw t p q t1 t2 : usable_item p -> valid_stream t (p_changes p) -> same (apply_all (p_changes p) t) t1 -> p_squashed p = false -> Q t1 q t2 -> Q t (p :: q) t2
| Qsq t p q t1 t2 : usable_item p -> net t (p_changes p) -> at_once (p_changes p) t t1 -> (again = true -> valid_stream t (p_changes p) /\ same (apply_all (p_changes p) t) t1) -> p_squashed p = true -> Q t1 q t2 -> Q t (p :: q) t2.

Lemma Q_same_r t q t1 t2 : Q t q t1 -> same t1 t2 -> Q t q t2.
Proof.
  intros H. revert t2. induction H as [t t' S|t p q u v U V S F H IH|t p q u v U N A G F H IH]; intros t2 S2.
  - constructor. exact (same_trans _ _ _ S S2).
  - eapply Qraw; eauto.
  - eapply Qsq; eauto.
Qed.
Lemma Q_same_l t t0 q t1 : Q t q t1 -> same t t0 -> Q t0 q t1.
Proof.
  intros H. revert t0. induction H as [t t' S|t p q u v U V S F H IH|t p q u v U N A G F H IH]; intros t0 S0.
  - constructor. exact (same_trans _ _ _ (same_sym _ _ S0) S).
  - eapply Qraw; [exact U|exact (same_valid _ _ _ S0 V)| |exact F|exact H]. exact (same_trans _ _ _ (same_sym _ _ (same_apply _ _ _ S0)) S).
  - eapply Qsq; [exact U|exact (net_same _ _ _ S0 N)|exact (at_once_same_l _ _ _ _ S0 A)| |exact F|exact H]. intros E. destruct (G E) as [V S]. split; [exact (same_valid _ _ _ S0 V)|].
    exact (same_trans _ _ _ (same_sym _ _ (same_apply _ _ _ S0)) S).
Qed.
Lemma Q_wide t q t' : Q t q t' -> wide (length vals) t -> wide (length vals) t'.
Proof.
  intros H. induction H as [t t' S|t p q u v U V S F H IH|t p q u v U N A G F H IH]; intros W.
  - exact (same_wide _ _ _ S W).
  - apply IH. apply (same_wide _ _ _ S). apply wide_apply_all; [exact W|]. intros c I. apply SC. destruct U as (_ & _ & U). exact (U c I).
  - apply IH. refine (wide_at_once _ _ _ _ W _ A). intros c I. apply SC. destruct U as (_ & _ & U). exact (U c I).
Qed.

(* ---- messages ---- *)
Lemma item_app p bs : item_changes pks vals (p_schema p, p_data p ++ bs) = p_changes p ++ item_changes pks vals (p_schema p, bs).
Proof. unfold p_changes, item_changes, item_rows, as_item. cbn [fst snd]. rewrite flat_map_app, map_app. reflexivity. Qed.
Definition fresh_item (m : list column * list rbatch) : pend := {| p_squashed := false; p_schema := fst m; p_data := snd m |}.
Lemma usable_app p bs : usable_item p -> usable_item (fresh_item (p_schema p, bs)) -> usable_item {| p_squashed := false; p_schema := p_schema p; p_data := p_data p ++ bs |}.
Proof.
  intros (G1 & F1 & C1) (G2 & F2 & C2). unfold usable_item, p_rows, p_changes, as_item in *. cbn [fresh_item p_schema p_data fst snd] in *. split; [|split].
  - destruct G1 as (S1 & N1 & W1 & R1), G2 as (_ & N2 & W2 & R2). cbn [fst snd] in *. split; [exact S1|]. cbn [fst snd]. split; [destruct (p_data p); [contradiction|discriminate]|]. split.
    + intros b I. apply in_app_or in I. destruct I as [I|I]; auto.
    + intros r I. unfold item_rows in *. cbn [snd] in *. rewrite flat_map_app in I. apply in_app_or in I. destruct I as [I|I]; auto.
  - exact F1.
  - intros c I. change (In c (item_changes pks vals (p_schema p, p_data p ++ bs))) in I. rewrite item_app in I. apply in_app_or in I. destruct I as [I|I]; auto.
Qed.
Lemma Q_enqueue n m q t t' : Q t q t' -> usable_item (fresh_item m) -> valid_stream t' (item_changes pks vals m) ->
  (forall p, In p q -> compatible (p_schema p) (fst m) = true -> p_schema p = fst m) -> (again = true \/ forall p, In p q -> p_squashed p = false) ->
  Q t (enqueue n (fst m) (snd m) q) (apply_all (item_changes pks vals m) t').
Proof.
  intros H UM V0 E0 A0. revert V0 E0 A0. induction H as [t t' S|t p q u v U V S F H IH|t p q u v U N A G F H IH]; intros V0 E0 A0.
  - cbn [enqueue]. eapply (Qraw t (fresh_item m)); [exact UM|apply (same_valid _ t'); [exact (same_sym _ _ S)|destruct m; exact V0]| |reflexivity|constructor; intros k; reflexivity].
    destruct m as [sch bs]. apply same_apply. exact S.
  - destruct q as [|p2 q].
    + cbn [enqueue]. inversion H as [? ? S2| |]; subst. destruct (compatible (p_schema p) (fst m) && (rows_of (p_data p) + rows_of (snd m) <=? n))%bool eqn:B.
      * apply andb_true_iff in B. destruct B as [B _]. pose proof (E0 p (or_introl eq_refl) B) as ES. destruct m as [sch bs]. cbn [fst snd] in *. subst sch.
        eapply Qraw; [apply usable_app; [exact U|exact UM]| | |reflexivity|constructor; intros k; reflexivity].
        -- unfold p_changes, as_item. cbn [p_schema p_data]. rewrite item_app. apply valid_app. split; [exact V|]. apply (same_valid _ v); [|exact V0]. apply same_sym. exact (same_trans _ _ _ S S2).
        -- unfold p_changes at 1, as_item. cbn [p_schema p_data]. rewrite item_app, apply_all_app. apply same_apply. exact (same_trans _ _ _ S S2).
      * eapply Qraw; [exact U|exact V|exact S|exact F|]. eapply (Qraw u (fresh_item m)); [exact UM|apply (same_valid _ v); [exact (same_sym _ _ S2)|destruct m; exact V0]| |reflexivity|constructor; intros k; reflexivity].
        destruct m as [sch bs]. apply same_apply. exact S2.
    + change (enqueue n (fst m) (snd m) (p :: p2 :: q)) with (p :: enqueue n (fst m) (snd m) (p2 :: q)). eapply Qraw; [exact U|exact V|exact S|exact F|]. apply IH; [exact V0|intros p' I; apply E0; right; exact I|].
      destruct A0 as [A0|A0]; [left; exact A0|right; intros p' I; apply A0; right; exact I].
  - destruct q as [|p2 q].
    + cbn [enqueue]. inversion H as [? ? S2| |]; subst. destruct (compatible (p_schema p) (fst m) && (rows_of (p_data p) + rows_of (snd m) <=? n))%bool eqn:B.
      * apply andb_true_iff in B. destruct B as [B _]. pose proof (E0 p (or_introl eq_refl) B) as ES. destruct m as [sch bs]. cbn [fst snd] in *. subst sch.
        destruct A0 as [A0|A0]; [|rewrite (A0 p (or_introl eq_refl)) in F; discriminate]. destruct (G A0) as [V S].
        eapply Qraw; [apply usable_app; [exact U|exact UM]| | |reflexivity|constructor; intros k; reflexivity].
        -- unfold p_changes, as_item. cbn [p_schema p_data]. rewrite item_app. apply valid_app. split; [exact V|]. apply (same_valid _ v); [|exact V0]. apply same_sym. exact (same_trans _ _ _ S S2).
        -- unfold p_changes at 1, as_item. cbn [p_schema p_data]. rewrite item_app, apply_all_app. apply same_apply. exact (same_trans _ _ _ S S2).
      * eapply Qsq; [exact U|exact N|exact A|exact G|exact F|]. eapply (Qraw u (fresh_item m)); [exact UM|apply (same_valid _ v); [exact (same_sym _ _ S2)|destruct m; exact V0]| |reflexivity|constructor; intros k; reflexivity].
        destruct m as [sch bs]. apply same_apply. exact S2.
    + change (enqueue n (fst m) (snd m) (p :: p2 :: q)) with (p :: enqueue n (fst m) (snd m) (p2 :: q)). eapply Qsq; [exact U|exact N|exact A|exact G|exact F|]. apply IH; [exact V0|intros p' I; apply E0; right; exact I|].
      destruct A0 as [A0|A0]; [left; exact A0|right; intros p' I; apply A0; right; exact I].
Qed.

(* ---- squashing ---- *)
Lemma squash_item p t rows : usable_item p -> valid_stream t (p_changes p) -> wide (length vals) t -> squash_batches (p_schema p) (p_data p) = Some rows ->
  let p' := {| p_squashed := true; p_schema := p_schema p; p_data := [{| rb_width := length (p_schema p); rb_rows := rows |}] |} in
  usable_item p' /\ net t (p_changes p') /\ at_once (p_changes p') t (apply_all (p_changes p) t) /\ (again = true -> valid_stream t (p_changes p') /\ same (apply_all (p_changes p') t) (apply_all (p_changes p) t)).
Proof.
  intros (G & NF & CC) V W E p'. assert (FA : forall r, In r (item_rows (as_item p)) -> flags_alike (p_schema p) r) by (intros r _; now apply no_flags_alike). pose proof (squash_batches_good pks _ G) as E'. cbn [as_item fst snd] in E'. rewrite E in E'. symmetry in E'.
  assert (CH : p_changes p' = map (change_of pks vals (p_schema p)) rows). { unfold p_changes, item_changes, item_rows, as_item, p'. cbn [p_schema p_data fst snd flat_map rb_rows]. rewrite app_nil_r. reflexivity. }
  destruct (squash_all_run pks vals C [as_item p] HC t [(p_schema p, rows)] W) as (RI & CL & _).
  - intros it [<-|[]]. split; [exact G|]. exact FA.
  - unfold all_changes. cbn [flat_map]. rewrite app_nil_r. exact V.
  - intros c I. unfold all_changes in I. cbn [flat_map] in I. rewrite app_nil_r in I. exact (CC c I).
  - cbn [squash_all as_item]. rewrite E. reflexivity.
  - unfold all_changes in RI. cbn [flat_map] in RI. rewrite app_nil_r in RI. inversion RI as [|? t1 ? ? ? ? GS GR NT AO RI']; subst. inversion RI' as [ta|]; subst.
    split; [|split; [|split]].
    + split; [|split].
      * destruct G as (G1 & _ & _ & _). split; [exact G1|]. split; [discriminate|]. split; [intros b [<-|[]]; reflexivity|]. unfold item_rows. cbn [as_item p' p_data p_schema fst snd flat_map rb_rows]. rewrite app_nil_r. exact GR.
      * exact NF.
      * rewrite CH. intros c I. apply (CL (p_schema p, rows)); [left; reflexivity|exact I].
    + rewrite CH. exact NT.
    + rewrite CH. exact AO.
    + intros A. rewrite CH. apply (resquash pks vals (as_item p) t rows G FA W V); [|exact E]. intros c I. apply (KC A). exact (CC c I).
Qed.
Lemma Q_squash q : forall t t', Q t q t' -> wide (length vals) t -> let (q', ok) := squash_queue q in Q t q' t' /\ (ok = true -> forall p, In p q' -> p_squashed p = true) /\ map p_schema q' = map p_schema q /\ (q <> [] -> q' <> []).
Proof.
  induction q as [|p q IH]; intros t t' H W; cbn [squash_queue].
  - split; [exact H|]. split; [intros _ p []|]. split; [reflexivity|intros X; exact X].
  - inversion H as [|? ? ? u ? U V S F H'|? ? ? u ? U N A G F H']; subst; rewrite F.
    + destruct (squash_batches (p_schema p) (p_data p)) as [rows|] eqn:E.
      * destruct (squash_item p t rows U V W E) as (U' & N' & A' & G').
        assert (W' : wide (length vals) u). { apply (same_wide _ _ _ S). apply wide_apply_all; [exact W|]. intros c I. apply SC. destruct U as (_ & _ & U). exact (U c I). }
        specialize (IH u t' H' W'). destruct (squash_queue q) as [q' ok]. destruct IH as (IH & AL & M & _). split; [|split; [|split]].
        -- eapply Qsq; [exact U'|exact N'|exact (at_once_same _ _ _ _ S A')| |reflexivity|exact IH]. intros B. destruct (G' B) as [V' S']. split; [exact V'|exact (same_trans _ _ _ S' S)].
        -- intros B p' [<-|I]; [reflexivity|exact (AL B p' I)].
        -- cbn [map p_schema]. rewrite M. reflexivity.
        -- discriminate.
      * split; [exact H|]. split; [discriminate|]. split; [reflexivity|discriminate].
    + assert (W' : wide (length vals) u). { refine (wide_at_once _ _ _ _ W _ A). intros c I. apply SC. destruct U as (_ & _ & U). exact (U c I). }
      specialize (IH u t' H' W'). destruct (squash_queue q) as [q' ok]. destruct IH as (IH & AL & M & _). split; [|split; [|split]].
      * eapply Qsq; eauto.
      * intros B p' [<-|I]; [exact F|exact (AL B p' I)].
      * cbn [map]. rewrite M. reflexivity.
      * discriminate.
Qed.

(* ---- flushing ---- *)
Lemma Q_run t q t' : Q t q t' -> (forall p, In p q -> p_squashed p = true) -> exists t2, run_items pks vals t (map (fun p => (p_schema p, p_rows p)) q) t2 /\ same t2 t' /\
  (forall it c, In it (map (fun p => (p_schema p, p_rows p)) q) -> In c (map (change_of pks vals (fst it)) (snd it)) -> C c).
Proof.
  intros H. induction H as [t t' S|t p q u v U V S F H IH|t p q u v U N A G F H IH]; intros AL.
  - exists t. split; [constructor|]. split; [exact S|intros it c []].
  - rewrite (AL p (or_introl eq_refl)) in F. discriminate.
  - destruct IH as (t2 & R & S & CL); [intros p' I; apply AL; right; exact I|]. exists t2. destruct U as ((G1 & G2 & G3 & G4) & NF & CC). split; [|split; [exact S|]].
    + cbn [map]. econstructor; [exact G1|exact G4|exact N|exact A|exact R].
    + intros it c [<-|I] J; [exact (CC c J)|exact (CL it c I J)].
Qed.
Lemma squash_queue_ok q : forall t t', Q t q t' -> snd (squash_queue q) = true.
Proof.
  induction q as [|p q IH]; intros t t' H; cbn [squash_queue]; [reflexivity|]. inversion H as [|? ? ? u ? U V S F H'|? ? ? u ? U N A G F H']; subst; rewrite F.
  - destruct U as (G & NF & _). destruct (squash_accepts_plain pks vals (as_item p) t G V NF) as [out E]. cbn [as_item fst snd] in E. rewrite E. specialize (IH u t' H'). destruct (squash_queue q). exact IH.
  - specialize (IH u t' H'). destruct (squash_queue q). exact IH.
Qed.

(* ---- the whole run ---- *)
Variables (max_rows bt : nat) (tcols : list nat) (stats : list (list (list value)) -> fstats) (prune : list (list (list value)) -> list (list (nat * (value * value))) -> list bool).
Hypothesis GC : good_columns tcols pks vals.
Hypothesis EN : engine_ok tcols stats prune.
Hypothesis AS : forall c, C c -> all_set c.
Hypothesis KT : forall c, C c -> forall o n, ch_old c = Some o -> ch_new c = Some n -> o = n \/ hd VNull o <> hd VNull n.
Notation tbl fs := (table_of tcols pks vals (concat fs)).
Definition Inv (t0 : tab) (ms : list (list column * list rbatch)) (n : nat) (s : state) : Prop :=
  n <= length ms /\ holds tcols pks vals (concat (files s)) (apply_all (all_changes pks vals (firstn n ms)) t0) /\
  Q (tbl (files s)) (queue s) (apply_all (all_changes pks vals ms) t0) /\
  (forall p, In p (queue s) -> exists m, In m ms /\ p_schema p = fst m).

Lemma all_changes_app a b : all_changes pks vals (a ++ b) = all_changes pks vals a ++ all_changes pks vals b.
Proof. unfold all_changes. apply flat_map_app. Qed.
Lemma rows_of_0 bs : rows_of bs = 0 -> flat_map rb_rows bs = [].
Proof. unfold rows_of. induction bs as [|b bs IH]; cbn [fold_right flat_map]; intros H; [reflexivity|]. destruct (rb_rows b); [|cbn in H; lia]. apply IH. exact H. Qed.
Lemma enqueue_schemas n sch bs q p : In p (enqueue n sch bs q) -> p_schema p = sch \/ exists p', In p' q /\ p_schema p = p_schema p'.
Proof.
  induction q as [|a q IH]; cbn [enqueue].
  - intros [<-|[]]. left. reflexivity.
  - destruct q as [|b q].
    + destruct (_ && _)%bool; intros I.
      * destruct I as [<-|[]]. right. exists a. split; [left; reflexivity|reflexivity].
      * destruct I as [<-|[<-|[]]]; [right; exists a; split; [left; reflexivity|reflexivity]|left; reflexivity].
    + intros [<-|I]; [right; exists a; split; [left; reflexivity|reflexivity]|]. destruct (IH I) as [E|(p' & I' & E)]; [left; exact E|right; exists p'; split; [right; exact I'|exact E]].
Qed.
Lemma plan_works t0 q t' old new fs : good_table tcols pks (concat fs) -> same t0 (tbl fs) -> Q t0 q t' -> (forall p, In p q -> p_squashed p = true) ->
  plan_delta_syncs bt (prune fs) (stats fs) tcols fs (map (fun p => (p_schema p, p_rows p)) q) = Some (old, new) ->
  good_table tcols pks (concat old ++ new) /\ forall k, table_of tcols pks vals (concat old ++ new) k = t' k.
Proof.
  intros GT S0 H AL P. apply (Q_same_l _ _ _ _ H) in S0. destruct (Q_run _ _ _ S0 AL) as (t2 & R & S & CL). destruct (EN fs) as [SO PP].
  destruct (plan_correct bt tcols pks vals fs (stats fs) (prune fs) GC GT PP SO C (map (fun p => (p_schema p, p_rows p)) q) t2 old new) as [G T]; [exact HC| |exact R|exact CL| |exact P|].
  - intros c Hc. split; [exact (KT c Hc)|]. intros n _. right. left. exact (AS c Hc).
  - destruct q as [|p q]; [exact Logic.I|]. cbn [map]. apply merge_ok_full. intros it u Hi Hu n Hn. apply (all_set_assigned pks vals); [|exact Hn]. apply AS. apply (CL it); [right; exact Hi|apply in_map; exact Hu].
  - split; [exact G|]. intros k. rewrite T. apply S.
Qed.
Lemma plan_goes t q t' fs k : good_table tcols pks (concat fs) -> same t (tbl fs) -> Q t q t' -> (forall p, In p q -> p_squashed p = true) -> t' k <> t k ->
  exists r, plan_delta_syncs bt (prune fs) (stats fs) tcols fs (map (fun p => (p_schema p, p_rows p)) q) = Some r.
Proof.
  intros GT S0 H AL D. destruct (Q_run _ _ _ H AL) as (t2 & R & S & _). rewrite <- (S k) in D.
  destruct (run_change _ _ _ _ _ R k D) as (it & r & ro & Hi & Hr & Hro & K). pose proof (run_items_good _ _ _ _ _ R) as GI. destruct GC as (ND & INC & _).
  assert (Lk : length k = length pks) by (rewrite <- (as_key_some _ _ K); apply map_length).
  assert (IN : incl pks tcols) by (intros n Hn; apply INC; auto).
  assert (NP : NoDup pks) by (destruct (GI it Hi) as [G _]; eapply nodup_pks; eauto).
  destruct (prune_some tcols pks _ GI fs (stats fs) (prune fs) it r ro k Hi Hr Hro K Lk ND IN NP) as [keep PK].
  unfold plan_delta_syncs. rewrite PK. destruct q as [|p q]; [contradiction|]. cbn [map squash_syncs].
  destruct (fold_left _ _ _) as [sch rows]. eauto.
Qed.

Lemma step_message t0 ms n s m : Inv t0 ms n s -> usable_item (fresh_item m) -> valid_stream (apply_all (all_changes pks vals ms) t0) (item_changes pks vals m) ->
  same_widths (ms ++ [m]) -> (again = true \/ forall p, In p (queue s) -> p_squashed p = false) ->
  Inv t0 (ms ++ [m]) n (fst (step max_rows bt tcols stats prune s (Message (fst m) (snd m)))).
Proof.
  intros (L & H & HQ & HS) U V SW A. cbn [step fst]. split; [rewrite app_length; lia|]. cbn [files queue]. split; [|split].
  - rewrite firstn_app. replace (n - length ms) with 0 by lia. cbn [firstn]. rewrite app_nil_r. exact H.
  - rewrite all_changes_app, apply_all_app. unfold all_changes at 1. cbn [flat_map]. rewrite app_nil_r. unfold receive. destruct (Nat.eqb_spec (rows_of (snd m)) 0) as [E|E].
    + unfold item_changes, item_rows. rewrite (rows_of_0 _ E). cbn [map]. exact HQ.
    + apply Q_enqueue; [exact HQ|exact U|exact V| |exact A]. intros p I B. apply compatible_eq; [|exact B]. destruct (HS p I) as (m' & I' & E'). rewrite E' in B |- *. apply (widths_of _ SW); [apply in_or_app; left; exact I'|apply in_or_app; right; left; reflexivity|exact B].
  - unfold receive. destruct (Nat.eqb (rows_of (snd m)) 0).
    + intros p I. destruct (HS p I) as (m' & I' & E'). exists m'. split; [apply in_or_app; left; exact I'|exact E'].
    + intros p I. apply enqueue_schemas in I. destruct I as [E|(p' & I & E)].
      * exists m. split; [apply in_or_app; right; left; reflexivity|exact E].
      * destruct (HS p' I) as (m' & I' & E'). exists m'. split; [apply in_or_app; left; exact I'|congruence].
Qed.
Lemma step_squash t0 ms n s : Inv t0 ms n s -> Inv t0 ms n {| files := files s; queue := fst (squash_queue (queue s)) |}.
Proof.
  intros (L & H & HQ & HS). pose proof (Q_squash (queue s) _ _ HQ (table_wide _ _ _ _)) as X. destruct (squash_queue (queue s)) as [q ok]. destruct X as (X & _ & M & _). cbn [fst]. split; [exact L|]. cbn [files queue]. split; [exact H|]. split; [exact X|].
  intros p I. assert (J : In (p_schema p) (map p_schema (queue s))) by (rewrite <- M; apply in_map; exact I). apply in_map_iff in J. destruct J as (p' & E & J). destruct (HS p' J) as (m & Hm & E'). exists m. split; [exact Hm|congruence].
Qed.
Lemma step_flush t0 ms n s cut : Inv t0 ms n s -> (forall rows, concat (cut rows) = rows) ->
  let r := step max_rows bt tcols stats prune s (Flush cut) in
  exists n', n <= n' /\ Inv t0 ms n' (fst r) /\ (snd r = true -> queue (fst r) = [] /\ n' = length ms) /\
    ((exists k, apply_all (all_changes pks vals ms) t0 k <> tbl (files s) k) -> snd r = true).
Proof.
  intros HI HCut. pose proof HI as (L & H & HQ & HS). unfold step. destruct (queue s) as [|p0 q0] eqn:EQ.
  - exists (length ms). split; [exact L|]. cbn [fst snd]. split.
    + inversion HQ as [? ? SS| |]; subst. split; [lia|]. rewrite firstn_all. split; [split; [apply H|exact SS]|]. rewrite EQ. split; [exact HQ|intros p []].
    + split; [split; [exact EQ|reflexivity]|reflexivity].
  - pose proof (step_squash t0 ms n s HI) as HI'. pose proof (squash_queue_ok _ _ _ HQ) as OK. rewrite EQ in HI'. pose proof (Q_squash (p0 :: q0) _ _ HQ (table_wide _ _ _ _)) as X.
    destruct (squash_queue (p0 :: q0)) as [q ok]. cbn [fst snd] in *. subst ok. destruct X as (X & AL & _ & _). specialize (AL eq_refl).
    destruct (plan_delta_syncs _ _ _ _ _ _) as [[old new]|] eqn:P; cbn [fst snd].
    + exists (length ms). split; [exact L|]. split; [|split; [split; reflexivity|reflexivity]].
      destruct (plan_works (tbl (files s)) q _ old new (files s) (proj1 H) (fun k => eq_refl) X AL P) as [G T].
      assert (EC : concat (old ++ cut new) = concat old ++ new) by (rewrite concat_app, HCut; reflexivity).
      split; [lia|]. cbn [files queue]. rewrite EC, firstn_all. split; [split; [exact G|exact T]|]. split; [constructor; exact T|intros p []].
    + exists n. split; [lia|]. split; [exact HI'|]. split; [discriminate|]. intros (k & D). exfalso.
      destruct (plan_goes (tbl (files s)) q _ (files s) k (proj1 H) (fun k => eq_refl) X AL D) as [r R]. congruence.
Qed.
End Inv.

Section Whole.
Variables (pks vals : list nat) (C : change -> Prop) (again : bool).
Hypothesis HC : closed C.
Hypothesis KC : again = true -> forall c, C c -> keeps_key c.
Hypothesis SC : forall c, C c -> length (ch_set c) = length vals.
Variables (max_rows bt : nat) (tcols : list nat) (stats : list (list (list value)) -> fstats) (prune : list (list (list value)) -> list (list (nat * (value * value))) -> list bool).
Hypothesis GC : good_columns tcols pks vals.
Hypothesis EN : engine_ok tcols stats prune.
Hypothesis AS : forall c, C c -> all_set c.
Hypothesis KT : forall c, C c -> forall o n, ch_old c = Some o -> ch_new c = Some n -> o = n \/ hd VNull o <> hd VNull n.
Notation inv := (Inv pks vals C again tcols).
Notation go := (run max_rows bt tcols stats prune).

Lemma messages_app a b : messages (a ++ b) = messages a ++ messages b.
Proof. apply flat_map_app. Qed.
Lemma same_widths_incl a b : incl a b -> same_widths b -> same_widths a.
Proof. intros I H x y more Hx Hy. apply H; apply I; assumption. Qed.
Lemma run_inv t0 es : forall s ms n, inv t0 ms n s -> (forall m, In m (messages es) -> usable_item pks vals C (fresh_item m)) ->
  valid_stream t0 (all_changes pks vals (ms ++ messages es)) -> same_widths (ms ++ messages es) -> cuts es -> (again = true \/ undisturbed (go s) es) ->
  exists n', n <= n' /\ inv t0 (ms ++ messages es) n' (go s es).
Proof.
  induction es as [|e es IH]; intros s ms n HI U V SW CU A.
  - exists n. split; [lia|]. cbn [messages flat_map] in *. rewrite app_nil_r. exact HI.
  - assert (CU' : cuts es) by (intros cut rows I; apply CU; right; exact I).
    assert (A' : again = true \/ undisturbed (go (fst (step max_rows bt tcols stats prune s e))) es).
    { destruct A as [A|A]; [left; exact A|right]. intros es1 sch bs es2 E p I. apply (A (e :: es1) sch bs es2); [rewrite E; reflexivity|exact I]. }
    change (go s (e :: es)) with (go (fst (step max_rows bt tcols stats prune s e)) es).
    destruct e as [sch bs| |cut|].
    + change (messages (Message sch bs :: es)) with ((sch, bs) :: messages es) in *. replace (ms ++ (sch, bs) :: messages es) with ((ms ++ [(sch, bs)]) ++ messages es) in * by (rewrite <- app_assoc; reflexivity).
      apply IH; try assumption.
      * apply (step_message pks vals C again max_rows bt tcols stats prune t0 ms n s (sch, bs)); [exact HI|apply U; left; reflexivity| | |].
        -- rewrite !all_changes_app in V. apply valid_app in V. destruct V as [V _]. apply valid_app in V. destruct V as [_ V]. unfold all_changes at 2 in V. cbn [flat_map] in V. rewrite app_nil_r in V. exact V.
        -- apply (same_widths_incl _ ((ms ++ [(sch, bs)]) ++ messages es)); [apply incl_appl; apply incl_refl|exact SW].
        -- destruct A as [A|A]; [left; exact A|right]. intros p I. apply (A [] sch bs es); [reflexivity|exact I].
      * intros m I. apply U. right. exact I.
    + apply IH; try assumption. pose proof (step_squash pks vals C again HC KC SC tcols t0 ms n s HI) as X. cbn [step]. destruct (squash_queue (queue s)). exact X.
    + destruct (step_flush pks vals C again HC KC SC max_rows bt tcols stats prune GC EN AS KT t0 ms n s cut HI) as (n1 & L1 & HI1 & _).
      { intros rows. apply CU. left. reflexivity. }
      destruct (IH _ ms n1 HI1 U V SW CU' A') as (n2 & L2 & HI2). exists n2. split; [lia|exact HI2].
    + apply IH; try assumption. pose proof (step_squash pks vals C again HC KC SC tcols t0 ms n s HI) as X. cbn [step]. destruct (squash_queue (queue s)). exact X.
Qed.
End Whole.
