(* Proofs about ConcModel.v; the theorems are in ConcProps.v. *)
From Coq Require Import List Arith Bool Permutation Lia.
From Verif Require Import ConcModel ConcSpec.
Import ListNotations.

Lemma mem_in n l : mem n l = true <-> In n l.
Proof.
  unfold mem. rewrite existsb_exists. split; [intros (x & H & E); apply Nat.eqb_eq in E; subst; exact H|].
  intros H. exists n. split; [exact H|apply Nat.eqb_refl].
Qed.
Lemma mem_not n l : mem n l = false <-> ~ In n l.
Proof. rewrite <- mem_in. destruct (mem n l); split; congruence. Qed.
Lemma filter_split {A} (f : A -> bool) l : Permutation l (filter f l ++ filter (fun x => negb (f x)) l).
Proof.
  induction l as [|a l IH]; cbn; [constructor|]. destruct (f a); cbn; [constructor; exact IH|].
  apply Permutation_cons_app. exact IH.
Qed.
Lemma perm_flat {A B} (f : A -> list B) a b : Permutation a b -> Permutation (flat_map f a) (flat_map f b).
Proof.
  induction 1; cbn; auto.
  - apply Permutation_app_head. exact IHPermutation.
  - rewrite !app_assoc. apply Permutation_app_tail. apply Permutation_app_comm.
  - eapply Permutation_trans; eassumption.
Qed.
Lemma perm_filter {A} (f : A -> bool) a b : Permutation a b -> Permutation (filter f a) (filter f b).
Proof.
  induction 1; cbn; auto.
  - destruct (f x); auto.
  - destruct (f x), (f y); auto. constructor.
  - eapply Permutation_trans; eassumption.
Qed.
Lemma nodup_map_filter {A B} (g : A -> B) (f : A -> bool) l : NoDup (map g l) -> NoDup (map g (filter f l)).
Proof.
  induction l as [|a l IH]; cbn; intros H; [constructor|]. inversion H as [|? ? N1 N2]; subst. destruct (f a); cbn; [|auto].
  constructor; [|auto]. intros X. apply N1. apply in_map_iff in X as (y & E & X). apply filter_In in X as [X _]. rewrite <- E. apply in_map. exact X.
Qed.
Lemma nodup_of_map {A B} (g : A -> B) l : NoDup (map g l) -> NoDup l.
Proof.
  induction l as [|a l IH]; cbn; intros H; [constructor|]. inversion H as [|? ? N1 N2]; subst. constructor; [|auto].
  intros X. apply N1. apply in_map. exact X.
Qed.
Lemma map_inj_in {A B} (g : A -> B) l a b : NoDup (map g l) -> In a l -> In b l -> g a = g b -> a = b.
Proof.
  induction l as [|x l IH]; [contradiction|]. cbn. intros H Ha Hb E. inversion H as [|? ? N1 N2]; subst.
  destruct Ha as [->|Ha], Hb as [->|Hb]; auto.
  - exfalso. apply N1. rewrite E. apply in_map. exact Hb.
  - exfalso. apply N1. rewrite <- E. apply in_map. exact Ha.
Qed.

Section P.
Context {R : Type}.
Variable prog : nat -> stmt R.
Variable keep : nat -> file R -> bool.
Notation plan := (plan prog keep).

Inductive ok_log : list (commit R) -> Prop :=
| ok_nil : ok_log []
| ok_snoc L c : ok_log L -> base c <= length L -> c = plan (by_ c) (base c) (table (firstn (base c) L)) ->
    ~ In (by_ c) (map by_ L) -> conflict L c = false -> ok_log (L ++ [c]).

Lemma table_snoc L (c : commit R) : table (L ++ [c]) = apply (table L) c.
Proof. unfold table. rewrite fold_left_app. reflexivity. Qed.
Lemma plan_by w n t : by_ (plan w n t) = w.
Proof. unfold ConcModel.plan. destruct (prog w); try reflexivity; destruct (filter (keep w) t); reflexivity. Qed.
Lemma plan_base w n t : base (plan w n t) = n.
Proof. unfold ConcModel.plan. destruct (prog w); try reflexivity; destruct (filter (keep w) t); reflexivity. Qed.
Lemma plan_adds w n t f : In f (adds (plan w n t)) -> fname f = w.
Proof.
  unfold ConcModel.plan. destruct (prog w); cbn; try (intros [<-|[]]; reflexivity); destruct (filter (keep w) t); cbn; try contradiction; intros [<-|[]]; reflexivity.
Qed.
Lemma plan_adds_len w n t : length (adds (plan w n t)) <= 1.
Proof. unfold ConcModel.plan. destruct (prog w); cbn; try lia; destruct (filter (keep w) t); cbn; lia. Qed.
Lemma ok_by L : ok_log L -> NoDup (map by_ L).
Proof.
  induction 1 as [|L c H IH Hb Hc Hn Hk]; [constructor|]. rewrite map_app. cbn. apply (NoDup_Add (a := by_ c) (l := map by_ L)).
  - rewrite <- (app_nil_r (map by_ L)) at 1. apply Add_app.
  - auto.
Qed.
Lemma ok_prefix L b : ok_log L -> ok_log (firstn b L).
Proof.
  intros H. revert b. induction H as [|L c H IH Hb Hc Hn Hk]; intros b; [rewrite firstn_nil; constructor|].
  destruct (le_lt_dec b (length L)) as [Hle|Hlt].
  - rewrite firstn_app. replace (b - length L) with 0 by lia. cbn. rewrite app_nil_r. apply IH.
  - rewrite firstn_all2; [|rewrite app_length; cbn; lia]. constructor; assumption.
Qed.
Lemma names_in L f : ok_log L -> In f (table L) -> In (fname f) (map by_ L).
Proof.
  intros H. induction H as [|L c H IH Hb Hc Hn Hk]; [contradiction|]. rewrite table_snoc. unfold apply.
  rewrite in_app_iff, filter_In, map_app, in_app_iff. intros [[X _]|X]; [left; auto|]. right. left.
  rewrite Hc in X. apply plan_adds in X. symmetry. exact X.
Qed.
Lemma names_nodup L : ok_log L -> NoDup (map fname (table L)).
Proof.
  induction 1 as [|L c H IH Hb Hc Hn Hk]; [constructor|]. rewrite table_snoc. unfold apply. rewrite map_app.
  assert (A : forall f, In f (adds c) -> fname f = by_ c) by (intros f X; rewrite Hc in X; apply plan_adds in X; exact X).
  assert (A2 : length (adds c) <= 1) by (rewrite Hc; apply plan_adds_len).
  pose proof (nodup_map_filter fname (fun f => negb (mem (fname f) (removes c))) _ IH) as N.
  destruct (adds c) as [|f [|g l]]; cbn in *; [rewrite app_nil_r; exact N| |lia].
  apply (NoDup_Add (a := fname f) (l := map fname (filter (fun f => negb (mem (fname f) (removes c))) (table L)))).
  - rewrite <- (app_nil_r (map fname (filter _ _))) at 1. apply Add_app.
  - split; [exact N|]. intros X. apply in_map_iff in X as (g & E & X). apply filter_In in X as [X _]. apply (names_in L g H) in X.
    apply Hn. rewrite <- (A f (or_introl eq_refl)), <- E. exact X.
Qed.
(* a file of an earlier version is still there, or a version in between has removed it *)
Lemma still_there (L : list (commit R)) b f : b <= length L -> In f (table (firstn b L)) -> In f (table L) \/ exists c, In c (skipn b L) /\ In (fname f) (removes c).
Proof.
  revert b. induction L as [|c L IH] using rev_ind; intros b Hb Hf.
  - cbn in Hb. assert (b = 0) by lia. subst. contradiction.
  - rewrite app_length in Hb. cbn in Hb. destruct (Nat.eq_dec b (S (length L))) as [->|Nb].
    + left. rewrite firstn_all2 in Hf; [exact Hf|rewrite app_length; cbn; lia].
    + assert (Hb' : b <= length L) by lia. rewrite firstn_app in Hf. replace (b - length L) with 0 in Hf by lia. cbn in Hf. rewrite app_nil_r in Hf.
      rewrite skipn_app. replace (b - length L) with 0 by lia. cbn [skipn].
      destruct (IH b Hb' Hf) as [H|(c' & H1 & H2)].
      * rewrite table_snoc. unfold apply. destruct (mem (fname f) (removes c)) eqn:M.
        -- right. exists c. split; [apply in_app_iff; right; left; reflexivity|apply mem_in; exact M].
        -- left. apply in_app_iff. left. apply filter_In. rewrite M. auto.
      * right. exists c'. split; [apply in_app_iff; left; exact H1|exact H2].
Qed.
Definition rewrites (s : stmt R) : Prop := match s with Delete _ | Update _ _ => True | _ => False end.
Lemma plan_rewrite w n t : rewrites (prog w) ->
  removes (plan w n t) = map fname (filter (keep w) t) /\
  all_rows (adds (plan w n t)) = flat_map (rewrite_row (prog w)) (all_rows (filter (keep w) t)).
Proof.
  unfold ConcModel.plan. destruct (prog w) as [l|q|p|p f] eqn:E; cbn [rewrites]; try contradiction; intros _;
    destruct (filter (keep w) t) as [|x xs]; cbn; split; try reflexivity; rewrite app_nil_r; reflexivity.
Qed.
Lemma no_conflict (L : list (commit R)) (c c' : commit R) n : conflict L c = false -> In c' (skipn (base c) L) -> In n (removes c') -> ~ In n (removes c).
Proof.
  unfold conflict. intros H Hc Hn X.
  assert (T : existsb (fun c' => existsb (fun n => mem n (removes c')) (removes c)) (skipn (base c) L) = true).
  { apply existsb_exists. exists c'. split; [exact Hc|]. apply existsb_exists. exists n. split; [exact X|apply mem_in; exact Hn]. }
  congruence.
Qed.
(* what a commit removes is there, as it was when the statement loaded the table *)
Lemma removed_perm L c : ok_log (L ++ [c]) -> rewrites (prog (by_ c)) -> ok_log L -> base c <= length L ->
  c = plan (by_ c) (base c) (table (firstn (base c) L)) -> conflict L c = false ->
  Permutation (filter (fun f => mem (fname f) (removes c)) (table L)) (filter (keep (by_ c)) (table (firstn (base c) L))).
Proof.
  intros _ Hr H Hb Hc Hk. destruct (plan_rewrite (by_ c) (base c) (table (firstn (base c) L)) Hr) as [E1 _]. rewrite <- Hc in E1.
  assert (P : forall g, In g (table (firstn (base c) L)) -> keep (by_ c) g = true -> In g (table L)).
  { intros g Hg Kg. destruct (still_there L (base c) g Hb Hg) as [X|(c' & X1 & X2)]; [exact X|]. exfalso.
    apply (no_conflict L c c' (fname g) Hk X1 X2). rewrite E1. apply in_map. apply filter_In. auto. }
  apply NoDup_Permutation.
  - apply NoDup_filter. apply (nodup_of_map fname). apply names_nodup. exact H.
  - apply NoDup_filter. apply (nodup_of_map fname). apply names_nodup. apply ok_prefix. exact H.
  - intros f. rewrite !filter_In. split.
    + intros [Hf M]. apply mem_in in M. rewrite E1 in M. apply in_map_iff in M as (g & E & Hg). apply filter_In in Hg as [G1 G2].
      assert (f = g) by (apply (map_inj_in fname (table L)); auto using names_nodup). subst g. auto.
    + intros [G1 G2]. split; [exact (P f G1 G2)|]. apply mem_in. rewrite E1. apply in_map. apply filter_In. auto.
Qed.
(* the rows after the commit of a DELETE or an UPDATE *)
Lemma commit_rows L c : ok_log (L ++ [c]) -> rewrites (prog (by_ c)) ->
  let old := filter (keep (by_ c)) (table (firstn (base c) L)) in
  Permutation (all_rows (table L)) (all_rows (filter (fun f => negb (mem (fname f) (removes c))) (table L)) ++ all_rows old) /\
  Permutation (all_rows (table (L ++ [c])))
    (all_rows (filter (fun f => negb (mem (fname f) (removes c))) (table L)) ++ flat_map (rewrite_row (prog (by_ c))) (all_rows old)).
Proof.
  intros H Hr old. inversion H as [E|L' c' H1 Hb Hc Hn Hk E]; [destruct L; discriminate|]. apply app_inj_tail in E as [-> ->].
  pose proof (removed_perm L c H Hr H1 Hb Hc Hk) as P. split.
  - eapply Permutation_trans; [apply perm_flat; apply (filter_split (fun f => mem (fname f) (removes c)))|].
    rewrite flat_map_app. eapply Permutation_trans; [apply Permutation_app_comm|]. apply Permutation_app_head. apply perm_flat. exact P.
  - rewrite table_snoc. unfold apply, all_rows. rewrite flat_map_app. apply Permutation_app_head.
    destruct (plan_rewrite (by_ c) (base c) (table (firstn (base c) L)) Hr) as [_ E2]. rewrite <- Hc in E2. unfold all_rows in E2. rewrite E2.
    apply Permutation_refl.
Qed.

(* reachable states *)
Definition inv (st : state R) : Prop :=
  ok_log (log st) /\ NoDup (map by_ (log st) ++ map by_ (running st)) /\
  Forall (fun c => base c <= length (log st) /\ c = plan (by_ c) (base c) (table (firstn (base c) (log st)))) (running st).
Lemma step_inv st e : inv st -> inv (step prog keep st e).
Proof.
  intros (H1 & H2 & H3). destruct e as [w|w]; cbn [step].
  - destruct (used st w) eqn:U; [split; [|split]; assumption|]. split; [exact H1|]. split; cbn [log running map].
    + unfold used in U. apply mem_not in U. rewrite plan_by. apply NoDup_Add with (a := w) (l := map by_ (log st) ++ map by_ (running st)); [apply Add_app|].
      split; [exact H2|]. intros X. apply U. rewrite !in_app_iff in *. tauto.
    + constructor; [|exact H3]. rewrite plan_by, plan_base. split; [lia|]. rewrite firstn_all. reflexivity.
  - destruct (find (fun c => Nat.eqb (by_ c) w) (running st)) as [c|] eqn:F; [|split; [|split]; assumption].
    apply find_some in F as [F1 F2]. apply Nat.eqb_eq in F2.
    assert (Hrest : NoDup (map by_ (log st) ++ map by_ (filter (fun c' => negb (Nat.eqb (by_ c') w)) (running st)))).
    { clear - H2. induction (map by_ (log st)) as [|x l IH]; cbn in *; [apply nodup_map_filter; exact H2|].
      inversion H2 as [|? ? N1 N2]; subst. constructor; [|auto]. intros X. apply N1. rewrite in_app_iff in *. destruct X as [X|X]; [auto|right].
      apply in_map_iff in X as (y & E & X). apply filter_In in X as [X _]. rewrite <- E. apply in_map. exact X. }
    destruct (conflict (log st) c) eqn:K.
    + split; [exact H1|]. split; [exact Hrest|]. cbn. clear - H3. induction H3 as [|x l A B IH]; cbn; [constructor|]. destruct (negb _); [constructor; assumption|exact IH].
    + pose proof (proj1 (Forall_forall _ _) H3 c F1) as [Hb Hc].
      assert (Nl : ~ In (by_ c) (map by_ (log st))).
      { intros X. apply in_split in X as (l1 & l2 & E). rewrite E in H2. rewrite <- app_assoc in H2. cbn in H2.
        apply NoDup_remove_2 in H2. apply H2. rewrite !in_app_iff. right. right. apply in_map. exact F1. }
      split; cbn [log running]; [constructor; assumption|]. split.
      * rewrite map_app. cbn. rewrite <- app_assoc. cbn. apply NoDup_Add with (a := by_ c) (l := map by_ (log st) ++ map by_ (filter (fun c' => negb (Nat.eqb (by_ c') w)) (running st))); [apply Add_app|].
        split; [exact Hrest|]. rewrite in_app_iff. intros [X|X]; [contradiction|]. apply in_map_iff in X as (y & E & X).
        apply filter_In in X as [_ X]. rewrite E, F2, Nat.eqb_refl in X. discriminate X.
      * rewrite Forall_forall in *. intros x Hx. apply filter_In in Hx as [Hx _]. destruct (H3 x Hx) as [B1 B2]. rewrite app_length. cbn.
        split; [lia|]. rewrite firstn_app. replace (base x - length (log st)) with 0 by lia. cbn. rewrite app_nil_r. exact B2.
Qed.
Lemma run_inv es : inv (run prog keep es).
Proof.
  unfold run. assert (G : inv init) by (split; [constructor|split; constructor]). revert G. generalize (@init R).
  induction es as [|e es IH]; intros st G; [exact G|]. cbn. apply IH. apply step_inv. exact G.
Qed.
Lemma ok_base L c : ok_log L -> In c L -> base c <= length L.
Proof.
  induction 1 as [|L x H IH Hb Hc Hn Hk]; [contradiction|]. rewrite in_app_iff, app_length. cbn. intros [X|[<-|[]]]; [specialize (IH X)|]; lia.
Qed.
End P.

(* Rows that carry the number of the statement that inserted them *)
Section T.
Context {R : Type}.
Variable prog : nat -> stmt R.
Variable keep : nat -> file R -> bool.
Hypothesis kinds : forall w, match prog w with Insert _ | Delete _ => True | _ => False end.
Hypothesis Hsound : sound prog keep.
Definition strip_file (f : file (nat * R)) : file R := {| fname := fname f; rows := map snd (rows f) |}.
Definition strip (c : commit (nat * R)) : commit R := {| by_ := by_ c; base := base c; adds := map strip_file (adds c); removes := removes c |}.
Definition tprog (w : nat) : stmt (nat * R) :=
  match prog w with
  | Insert l => Insert (map (pair w) l)
  | Delete p => Delete (fun x => p (snd x))
  | _ => Insert []
  end.
Definition tkeep (w : nat) (f : file (nat * R)) : bool := keep w (strip_file f).
Lemma strip_table L : map strip_file (table L) = table (map strip L).
Proof.
  induction L as [|c L IH] using rev_ind; [reflexivity|]. rewrite map_app. cbn [map]. rewrite !table_snoc. unfold apply. rewrite map_app, <- IH. f_equal.
  clear. induction (table L) as [|f l IH]; cbn; [reflexivity|]. destruct (negb _); cbn; rewrite IH; reflexivity.
Qed.
Lemma strip_rows t : map snd (all_rows t) = all_rows (map strip_file t).
Proof. unfold all_rows. induction t as [|f t IH]; cbn; [reflexivity|]. rewrite map_app, IH. reflexivity. Qed.
Lemma strip_keep w t : map strip_file (filter (tkeep w) t) = filter (keep w) (map strip_file t).
Proof. induction t as [|f t IH]; cbn; [reflexivity|]. unfold tkeep at 1. destruct (keep w (strip_file f)); cbn; rewrite IH; reflexivity. Qed.
Lemma strip_plan w n t : strip (plan tprog tkeep w n t) = plan prog keep w n (map strip_file t).
Proof.
  unfold plan, tprog. pose proof (kinds w) as K. destruct (prog w) as [l|q|p|p f]; try contradiction.
  - unfold strip. cbn. unfold strip_file. cbn. rewrite map_map. cbn. rewrite map_id. reflexivity.
  - rewrite <- strip_keep. destruct (filter (tkeep w) t) as [|x xs] eqn:F; [reflexivity|].
    cbn [map]. unfold strip. cbn [by_ base adds removes map]. f_equal.
    + f_equal. unfold strip_file at 1. cbn [fname rows]. f_equal. change (strip_file x :: map strip_file xs) with (map strip_file (x :: xs)).
      rewrite <- strip_rows. generalize (all_rows (x :: xs)). clear. induction l as [|[a r] l IH]; cbn; [reflexivity|]. rewrite map_app, IH. destruct (p r); reflexivity.
    + rewrite map_map. reflexivity.
Qed.
Lemma lift L : ok_log prog keep L -> exists L', ok_log tprog tkeep L' /\ map strip L' = L.
Proof.
  induction 1 as [|L c H (L' & IH1 & IH2) Hb Hc Hn Hk]; [exists []; split; [constructor|reflexivity]|].
  set (c' := plan tprog tkeep (by_ c) (base c) (table (firstn (base c) L'))).
  assert (E : strip c' = c).
  { unfold c'. rewrite strip_plan, strip_table, <- firstn_map, IH2, <- Hc. reflexivity. }
  assert (E1 : by_ c' = by_ c) by (rewrite <- E; reflexivity). assert (E2 : base c' = base c) by (rewrite <- E; reflexivity).
  exists (L' ++ [c']). split; [|rewrite map_app; cbn; rewrite IH2, E; reflexivity].
  assert (B : map by_ L' = map by_ L) by (rewrite <- IH2, map_map; reflexivity).
  constructor; [exact IH1| | | |].
  - rewrite E2. rewrite <- (map_length strip L'), IH2. exact Hb.
  - rewrite E1, E2. reflexivity.
  - rewrite E1, B. exact Hn.
  - rewrite <- Hk, <- IH2, <- E. unfold conflict. cbn [base removes strip]. rewrite skipn_map. clear.
    induction (skipn (base c') L') as [|x l IH]; cbn; [reflexivity|]. rewrite IH. reflexivity.
Qed.
Lemma tkinds w : match tprog w with Insert l => Forall (fun x => fst x = w) l | Delete _ => True | _ => False end.
Proof.
  unfold tprog. pose proof (kinds w) as K. destruct (prog w) as [l|q|p|p f]; try contradiction; [|exact Logic.I].
  apply Forall_forall. intros x Hx. apply in_map_iff in Hx as (y & <- & _). reflexivity.
Qed.
Lemma strip_order order : map snd (one_by_one tprog order) = one_by_one prog order.
Proof.
  unfold one_by_one. assert (G : forall t, map snd (fold_left (fun t w => alone (tprog w) t) order t) = fold_left (fun t w => alone (prog w) t) order (map snd t)).
  { induction order as [|w order IH]; intros t; cbn; [reflexivity|]. rewrite IH. f_equal. unfold tprog. pose proof (kinds w) as K.
    destruct (prog w) as [l|q|p|p f]; try contradiction; cbn.
    - rewrite map_app, map_map. cbn. rewrite map_id. reflexivity.
    - clear. induction t as [|[a r] t IH]; cbn; [reflexivity|]. destruct (p r); cbn; rewrite IH; reflexivity. }
  apply G.
Qed.
Definition is_insert (w : nat) : Prop := match prog w with Insert _ => True | _ => False end.
Notation tok := (ok_log tprog tkeep).
(* every row carries the number of an INSERT of the log *)
Lemma row_tags L f x : tok L -> In f (table L) -> In x (rows f) -> In (fst x) (map by_ L) /\ is_insert (fst x).
Proof.
  intros H. revert f x. induction H as [|L c H IH Hb Hc Hn Hk]; intros f x Hf Hx; [contradiction|]. rewrite table_snoc in Hf. unfold apply in Hf.
  rewrite map_app. apply in_app_iff in Hf as [Hf|Hf].
  - apply filter_In in Hf as [Hf _]. destruct (IH f x Hf Hx) as [A B]. split; [apply in_app_iff; left; exact A|exact B].
  - pose proof (tkinds (by_ c)) as K. destruct (tprog (by_ c)) as [l|q|p|p g] eqn:T; try contradiction.
    + rewrite Hc in Hf. unfold plan in Hf. rewrite T in Hf. destruct Hf as [<-|[]]. cbn in Hx. rewrite Forall_forall in K.
      rewrite (K x Hx). split; [apply in_app_iff; right; left; reflexivity|]. unfold is_insert. unfold tprog in T.
      pose proof (kinds (by_ c)) as K2. destruct (prog (by_ c)); try discriminate T; try contradiction; exact Logic.I.
    + destruct (plan_rewrite tprog tkeep (by_ c) (base c) (table (firstn (base c) L))) as [_ E]; [rewrite T; exact Logic.I|].
      rewrite <- Hc in E. assert (Hx2 : In x (all_rows (adds c))) by (apply in_flat_map; eauto). rewrite E in Hx2.
      apply in_flat_map in Hx2 as (y & Hy & Hxy). rewrite T in Hxy. cbn in Hxy. destruct (p y); [contradiction|]. destruct Hxy as [->|[]].
      apply in_flat_map in Hy as (g & Hg & Hy). apply filter_In in Hg as [Hg Kg].
      assert (P : In g (table L)).
      { destruct (still_there L (base c) g Hb Hg) as [X|(c' & X1 & X2)]; [exact X|]. exfalso. apply (no_conflict L c c' (fname g) Hk X1 X2).
        destruct (plan_rewrite tprog tkeep (by_ c) (base c) (table (firstn (base c) L))) as [E1 _]; [rewrite T; exact Logic.I|].
        rewrite <- Hc in E1. rewrite E1. apply in_map. apply filter_In. auto. }
      destruct (IH g x P Hy) as [A B]. split; [apply in_app_iff; left; exact A|exact B].
Qed.
(* lineage: a row of an INSERT that version b contained is in a file of version b, or that file has been removed since *)
Lemma lineage L b f x : tok L -> b <= length L -> In f (table L) -> In x (rows f) -> In (fst x) (map by_ (firstn b L)) ->
  In f (table (firstn b L)) \/ exists g c, In g (table (firstn b L)) /\ In x (rows g) /\ In c (skipn b L) /\ In (fname g) (removes c).
Proof.
  intros H. revert b f x. induction H as [|L c H IH Hb Hc Hn Hk]; intros b f x Hle Hf Hx Ht; [contradiction|].
  rewrite app_length in Hle. cbn in Hle. destruct (Nat.eq_dec b (S (length L))) as [->|Nb].
  { left. rewrite firstn_all2; [exact Hf|rewrite app_length; cbn; lia]. }
  assert (Hle' : b <= length L) by lia.
  assert (E1 : firstn b (L ++ [c]) = firstn b L) by (rewrite firstn_app; replace (b - length L) with 0 by lia; cbn; apply app_nil_r).
  assert (E2 : skipn b (L ++ [c]) = skipn b L ++ [c]) by (rewrite skipn_app; replace (b - length L) with 0 by lia; reflexivity).
  rewrite E1 in *. rewrite E2. rewrite table_snoc in Hf. unfold apply in Hf. apply in_app_iff in Hf as [Hf|Hf].
  - apply filter_In in Hf as [Hf _]. destruct (IH b f x Hle' Hf Hx Ht) as [A|(g & c' & A1 & A2 & A3 & A4)]; [left; exact A|right].
    exists g, c'. rewrite in_app_iff. auto 10.
  - right. pose proof (tkinds (by_ c)) as K. destruct (tprog (by_ c)) as [l|q|p|p g] eqn:T; try contradiction.
    + exfalso. rewrite Hc in Hf. unfold plan in Hf. rewrite T in Hf. destruct Hf as [<-|[]]. cbn in Hx. rewrite Forall_forall in K. rewrite (K x Hx) in Ht.
      apply Hn. rewrite <- (firstn_skipn b L), map_app. apply in_app_iff. left. exact Ht.
    + destruct (plan_rewrite tprog tkeep (by_ c) (base c) (table (firstn (base c) L))) as [R1 R2]; [rewrite T; exact Logic.I|].
      rewrite <- Hc in R1, R2. assert (Hx2 : In x (all_rows (adds c))) by (apply in_flat_map; eauto). rewrite R2 in Hx2.
      apply in_flat_map in Hx2 as (y & Hy & Hxy). rewrite T in Hxy. cbn in Hxy. destruct (p y); [contradiction|]. destruct Hxy as [->|[]].
      apply in_flat_map in Hy as (g & Hg & Hy). assert (Rg : In (fname g) (removes c)) by (rewrite R1; apply in_map; exact Hg).
      apply filter_In in Hg as [Hg Kg].
      assert (P : In g (table L)).
      { destruct (still_there L (base c) g Hb Hg) as [X|(c' & X1 & X2)]; [exact X|]. exfalso. exact (no_conflict L c c' (fname g) Hk X1 X2 Rg). }
      destruct (IH b g x Hle' P Hy Ht) as [A|(g' & c' & A1 & A2 & A3 & A4)].
      * exists g, c. rewrite in_app_iff. cbn. auto 10.
      * exists g', c'. rewrite in_app_iff. auto 10.
Qed.
Definition gone (p : R -> bool) (seen : list nat) (x : nat * R) : bool := p (snd x) && mem (fst x) seen.
(* a DELETE takes away the rows that it selects among those it could see *)
Lemma delete_rows L c p : tok (L ++ [c]) -> prog (by_ c) = Delete p ->
  Permutation (all_rows (table (L ++ [c]))) (filter (fun x => negb (gone p (map by_ (firstn (base c) L)) x)) (all_rows (table L))).
Proof.
  intros H Ep. assert (T : tprog (by_ c) = Delete (fun x => p (snd x))) by (unfold tprog; rewrite Ep; reflexivity).
  destruct (commit_rows tprog tkeep L c H) as [C1 C2]; [rewrite T; exact Logic.I|].
  inversion H as [E|L' c' H1 Hb Hc Hn Hk E]; [destruct L; discriminate|]. apply app_inj_tail in E as [-> ->].
  eapply Permutation_trans; [exact C2|]. apply Permutation_sym. eapply Permutation_trans; [apply perm_filter; exact C1|]. rewrite filter_app.
  set (kept := filter (fun f => negb (mem (fname f) (removes c))) (table L)) in *. set (old := filter (tkeep (by_ c)) (table (firstn (base c) L))) in *.
  replace (filter (fun x => negb (gone p (map by_ (firstn (base c) L)) x)) (all_rows kept)) with (all_rows kept).
  - apply Permutation_app_head. rewrite T.
    assert (G : forall l, (forall x, In x l -> In (fst x) (map by_ (firstn (base c) L))) ->
      Permutation (filter (fun x => negb (gone p (map by_ (firstn (base c) L)) x)) l) (flat_map (rewrite_row (Delete (fun x => p (snd x)))) l)).
    { induction l as [|x l IH]; intros Hl; cbn; [constructor|]. unfold gone at 1. rewrite (proj2 (mem_in _ _) (Hl x (or_introl eq_refl))), andb_true_r.
      assert (IHl := IH (fun y Hy => Hl y (or_intror Hy))). destruct (p (snd x)); cbn; [exact IHl|constructor; exact IHl]. }
    apply G. intros x Hx. apply in_flat_map in Hx as (f & Hf & Hx). apply filter_In in Hf as [Hf _].
    exact (proj1 (row_tags _ f x (ok_prefix tprog tkeep L (base c) H1) Hf Hx)).
  - assert (G : forall l, (forall x, In x l -> gone p (map by_ (firstn (base c) L)) x = false) -> l = filter (fun x => negb (gone p (map by_ (firstn (base c) L)) x)) l).
    { induction l as [|x l IH]; intros Hl; cbn; [reflexivity|]. rewrite (Hl x (or_introl eq_refl)). cbn. f_equal. apply IH. intros y Hy. apply Hl. right. exact Hy. }
    apply G. intros x Hx. apply in_flat_map in Hx as (f & Hf & Hx). apply filter_In in Hf as [Hf Mf]. apply negb_true_iff in Mf. apply mem_not in Mf.
    unfold gone. destruct (p (snd x)) eqn:Px; [|reflexivity]. cbn. apply mem_not. intros Ht.
    destruct (plan_rewrite tprog tkeep (by_ c) (base c) (table (firstn (base c) L))) as [R1 _]; [rewrite T; exact Logic.I|]. rewrite <- Hc in R1.
    assert (Sel : forall g, In g (table (firstn (base c) L)) -> In x (rows g) -> In (fname g) (removes c)).
    { intros g Hg Hxg. rewrite R1. apply in_map. apply filter_In. split; [exact Hg|]. unfold tkeep. destruct (keep (by_ c) (strip_file g)) eqn:K; [reflexivity|].
      exfalso. assert (S := Hsound (by_ c) (strip_file g) K (snd x)). rewrite Ep in S. cbn in S. rewrite S in Px; [discriminate|]. apply in_map. exact Hxg. }
    destruct (lineage L (base c) f x H1 Hb Hf Hx Ht) as [A|(g & c' & A1 & A2 & A3 & A4)].
    + exact (Mf (Sel f A Hx)).
    + exact (no_conflict L c c' (fname g) Hk A3 A4 (Sel g A1 A2)).
Qed.

(* the order *)
Lemma fold_gone p seen o2 t : (forall w, In w o2 -> is_insert w -> ~ In w seen) ->
  fold_left (fun t w => alone (tprog w) t) o2 (filter (fun x => negb (gone p seen x)) t) =
  filter (fun x => negb (gone p seen x)) (fold_left (fun t w => alone (tprog w) t) o2 t).
Proof.
  revert t. induction o2 as [|w o2 IH]; intros t Ho; cbn; [reflexivity|]. rewrite <- IH by (intros; apply Ho; [right; assumption|assumption]). f_equal.
  pose proof (tkinds w) as K. unfold tprog in *. pose proof (kinds w) as K2. assert (Hw := Ho w (or_introl eq_refl)). unfold is_insert in Hw.
  destruct (prog w) as [l|q|p'|p' f]; try contradiction; cbn [alone].
  - rewrite filter_app. f_equal. specialize (Hw Logic.I). clear - Hw. induction l as [|r l IH]; cbn; [reflexivity|].
    unfold gone at 1. cbn [fst snd]. rewrite (proj2 (mem_not _ _) Hw), andb_false_r. cbn. f_equal. exact IH.
  - clear. induction t as [|x t IH]; cbn; [reflexivity|]. destruct (gone p seen x) eqn:G, (p' (snd x)) eqn:P; cbn; rewrite ?G, ?P; cbn; rewrite ?IH; reflexivity.
Qed.
Lemma order_tags order x : In x (one_by_one tprog order) -> In (fst x) order /\ is_insert (fst x).
Proof.
  unfold one_by_one. induction order as [|w order IH] using rev_ind; [contradiction|]. rewrite fold_left_app. cbn. intros H. rewrite in_app_iff.
  pose proof (tkinds w) as K. destruct (tprog w) as [l|q|p|p f] eqn:T; try contradiction; cbn [alone] in H.
  - apply in_app_iff in H as [H|H]; [destruct (IH H); auto|]. rewrite Forall_forall in K. rewrite (K x H). split; [right; left; reflexivity|].
    unfold is_insert. unfold tprog in T. pose proof (kinds w) as K2. destruct (prog w); try discriminate T; try contradiction; exact Logic.I.
  - apply filter_In in H as [H _]. destruct (IH H). auto.
Qed.
Definition splits (L : list (commit (nat * R))) (order : list nat) (b : nat) : Prop :=
  exists o1 o2, order = o1 ++ o2 /\ (forall w, In w (map by_ (firstn b L)) -> In w o1) /\ (forall w, In w o1 -> is_insert w -> In w (map by_ (firstn b L))).
Definition timely (L : list (commit (nat * R))) (order : list nat) : Prop :=
  forall c w, In c L -> In w (map by_ (firstn (base c) L)) -> precedes order w (by_ c).
Lemma app_split {A} (a b c d : list A) : a ++ b = c ++ d -> (exists e, a = c ++ e /\ d = e ++ b) \/ (exists e, c = a ++ e /\ b = e ++ d).
Proof.
  revert c. induction a as [|x a IH]; intros [|y c] H; cbn in H.
  - left. exists []. auto.
  - right. exists (y :: c). auto.
  - left. exists (x :: a). auto.
  - inversion H; subst. destruct (IH c H2) as [(e & -> & ->)|(e & -> & ->)]; [left|right]; exists e; auto.
Qed.
Lemma precedes_insert o1 o2 x a b : precedes (o1 ++ o2) a b -> precedes (o1 ++ x :: o2) a b.
Proof.
  intros (l1 & l2 & l3 & E). unfold precedes.
  destruct (app_split _ _ _ _ E) as [(e & -> & E2)|(e & -> & ->)].
  - (* o1 = l1 ++ e, a :: l2 ++ b :: l3 = e ++ o2 *)
    destruct e as [|y e]; cbn in E2.
    + rewrite app_nil_r. subst o2. exists (l1 ++ [x]), l2, l3. rewrite <- app_assoc. reflexivity.
    + injection E2 as -> E4. destruct (app_split _ _ _ _ E4) as [(e2 & -> & E3)|(e2 & -> & E3)].
      * (* l2 = e ++ e2 ; o2 = e2 ++ b :: l3 *)
        subst o2. exists l1, (e ++ x :: e2), l3. rewrite <- ?app_assoc. cbn. rewrite <- ?app_assoc. reflexivity.
      * destruct e2 as [|z e2]; cbn in E3.
        -- subst o2. rewrite app_nil_r. exists l1, (l2 ++ [x]), l3. rewrite <- ?app_assoc. cbn. rewrite <- ?app_assoc. reflexivity.
        -- injection E3 as -> ->. exists l1, l2, (e2 ++ x :: o2). rewrite <- ?app_assoc. cbn. rewrite <- ?app_assoc. reflexivity.
  - exists (o1 ++ x :: e), l2, l3. rewrite <- app_assoc. reflexivity.
Qed.
Lemma precedes_split o1 o2 a x : In a o1 -> precedes (o1 ++ x :: o2) a x.
Proof. intros H. apply in_split in H as (l1 & l2 & ->). exists l1, l2, o2. rewrite <- app_assoc. reflexivity. Qed.
Lemma order_exists L : tok L -> exists order, Permutation order (map by_ L) /\ Permutation (all_rows (table L)) (one_by_one tprog order) /\
  (forall b, b <= length L -> splits L order b) /\ timely L order.
Proof.
  intros H. induction H as [|L c H (order & O1 & O2 & O3 & O4) Hb Hc Hn Hk].
  { exists []. split; [constructor|]. split; [constructor|]. split; [|intros c w []]. intros b Hb. cbn in Hb. exists [], []. split; [reflexivity|].
    rewrite firstn_nil. split; [intros w []|intros w []]. }
  assert (Hok : tok (L ++ [c])) by (constructor; assumption).
  assert (F1 : forall b, b <= length L -> firstn b (L ++ [c]) = firstn b L).
  { intros b Hle. rewrite firstn_app. replace (b - length L) with 0 by lia. cbn. apply app_nil_r. }
  assert (Nd : NoDup order) by (apply (Permutation_NoDup (Permutation_sym O1)); exact (ok_by tprog tkeep L H)).
  assert (All : forall o, Permutation o (map by_ (L ++ [c])) -> splits (L ++ [c]) o (S (length L))).
  { intros o P. exists o, []. rewrite app_nil_r. split; [reflexivity|]. rewrite firstn_all2 by (rewrite app_length; cbn; lia).
    split; [intros w Hw; exact (Permutation_in _ (Permutation_sym P) Hw)|intros w Hw _; exact (Permutation_in _ P Hw)]. }
  pose proof (kinds (by_ c)) as K. destruct (prog (by_ c)) as [l|q|p|p f] eqn:Ep; try contradiction.
  - (* INSERT: at the end *)
    assert (T : tprog (by_ c) = Insert (map (pair (by_ c)) l)) by (unfold tprog; rewrite Ep; reflexivity).
    assert (P : Permutation (order ++ [by_ c]) (map by_ (L ++ [c]))) by (rewrite map_app; apply Permutation_app_tail; exact O1).
    exists (order ++ [by_ c]). split; [exact P|]. split; [|split].
    + rewrite table_snoc. unfold apply. assert (Er : removes c = []) by (rewrite Hc; unfold plan; rewrite T; reflexivity).
      assert (Ea : adds c = [{| fname := by_ c; rows := map (pair (by_ c)) l |}]) by (rewrite Hc at 1; unfold plan; rewrite T; reflexivity).
      rewrite Er, Ea. unfold all_rows. rewrite flat_map_app. cbn. rewrite app_nil_r. unfold one_by_one. rewrite fold_left_app. cbn. rewrite T. cbn.
      apply Permutation_app_tail. assert (Ft : forall t : list (file (nat * R)), filter (fun _ => true) t = t) by (induction t as [|x t IHt]; cbn; [reflexivity|f_equal; exact IHt]).
      rewrite Ft. exact O2.
    + intros b Hle. rewrite app_length in Hle. cbn in Hle. destruct (Nat.eq_dec b (S (length L))) as [->|Nb]; [exact (All _ P)|].
      destruct (O3 b ltac:(lia)) as (o1 & o2 & -> & S1 & S2). exists o1, (o2 ++ [by_ c]). rewrite <- app_assoc. split; [reflexivity|]. rewrite F1 by lia. auto.
    + intros c' w Hc' Hw. apply in_app_iff in Hc' as [Hc'|[<-|[]]].
      * rewrite F1 in Hw by exact (ok_base tprog tkeep L c' H Hc'). destruct (O4 c' w Hc' Hw) as (l1 & l2 & l3 & ->). exists l1, l2, (l3 ++ [by_ c]).
        rewrite <- app_assoc. cbn. rewrite <- app_assoc. reflexivity.
      * rewrite F1 in Hw by exact Hb. apply precedes_split. apply (Permutation_in _ (Permutation_sym O1)).
        rewrite <- (firstn_skipn (base c) L), map_app. apply in_app_iff. left. exact Hw.
  - (* DELETE: where it loaded the table *)
    assert (T : tprog (by_ c) = Delete (fun x => p (snd x))) by (unfold tprog; rewrite Ep; reflexivity).
    destruct (O3 (base c) Hb) as (o1 & o2 & -> & S1 & S2). exists (o1 ++ by_ c :: o2).
    assert (P : Permutation (o1 ++ by_ c :: o2) (map by_ (L ++ [c]))).
    { eapply Permutation_trans; [apply Permutation_sym; apply Permutation_middle|]. rewrite map_app. cbn.
      eapply Permutation_trans; [|apply Permutation_cons_append]. constructor. exact O1. }
    split; [exact P|]. split; [|split].
    + eapply Permutation_trans; [exact (delete_rows L c p Hok Ep)|]. eapply Permutation_trans; [apply perm_filter; exact O2|].
      unfold one_by_one. rewrite !fold_left_app. cbn [fold_left]. rewrite T. cbn [alone].
      rewrite <- fold_gone.
      * replace (filter (fun x => negb (gone p (map by_ (firstn (base c) L)) x)) (fold_left (fun t w => alone (tprog w) t) o1 []))
          with (filter (fun r : nat * R => negb (p (snd r))) (fold_left (fun t w => alone (tprog w) t) o1 [])); [apply Permutation_refl|].
        assert (G : forall l : list (nat * R), (forall x, In x l -> In (fst x) (map by_ (firstn (base c) L))) ->
          filter (fun r => negb (p (snd r))) l = filter (fun x => negb (gone p (map by_ (firstn (base c) L)) x)) l).
        { induction l as [|x l IHl]; intros Hl; cbn; [reflexivity|]. unfold gone at 1. rewrite (proj2 (mem_in _ _) (Hl x (or_introl eq_refl))), andb_true_r.
          rewrite (IHl (fun y Hy => Hl y (or_intror Hy))). reflexivity. }
        apply G. intros x Hx. destruct (order_tags o1 x Hx) as [X1 X2]. exact (S2 _ X1 X2).
      * intros w Hw _ Hs. apply S1 in Hs. apply in_split in Hs as (u1 & u2 & ->). rewrite <- app_assoc in Nd. cbn in Nd. apply NoDup_remove_2 in Nd.
        apply Nd. rewrite !in_app_iff. auto.
    + intros b Hle. rewrite app_length in Hle. cbn in Hle. destruct (Nat.eq_dec b (S (length L))) as [->|Nb]; [exact (All _ P)|].
      assert (Hb' : b <= length L) by lia. destruct (O3 b Hb') as (u1 & u2 & E & U1 & U2). unfold splits. rewrite F1 by exact Hb'.
      destruct (app_split _ _ _ _ E) as [(e & -> & ->)|(e & -> & ->)].
      * exists u1, (e ++ by_ c :: o2). rewrite <- app_assoc. auto.
      * exists (o1 ++ by_ c :: e), u2. rewrite <- app_assoc. split; [reflexivity|]. split.
        -- intros w Hw. apply U1 in Hw. rewrite in_app_iff in *. cbn. tauto.
        -- intros w Hw Iw. rewrite in_app_iff in Hw. cbn in Hw. destruct Hw as [Hw|[<-|Hw]]; [apply U2; [apply in_app_iff; auto|exact Iw]| |apply U2; [apply in_app_iff; auto|exact Iw]].
           exfalso. unfold is_insert in Iw. rewrite Ep in Iw. exact Iw.
    + intros c' w Hc' Hw. apply in_app_iff in Hc' as [Hc'|[<-|[]]].
      * rewrite F1 in Hw by exact (ok_base tprog tkeep L c' H Hc'). apply precedes_insert. exact (O4 c' w Hc' Hw).
      * rewrite F1 in Hw by exact Hb. apply precedes_split. exact (S1 w Hw).
Qed.
End T.
