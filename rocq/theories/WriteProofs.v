(* Proofs about writing tables. *)
From Coq Require Import List Arith Bool Lia Permutation.
From Verif Require Import WriteModel WriteSpec.
Import ListNotations.

Section Files.
Context {R : Type}.
Implicit Types (closed fs : list (list R)) (cur : list R).

(* state of the distribution: rows so far, sizes *)
Definition fine (max : nat) closed cur (sz : nat) : Prop :=
  Forall (fun f => length f = max) closed /\ length cur = sz /\ sz <= max.

Lemma spread_ok : forall fuel max closed cur sz leftover b closed' cur' sz',
  Forall (fun f => length f = max) closed -> length cur + leftover = max -> (sz = length cur) ->
  spread fuel max closed cur sz leftover b = Ok (closed', cur', sz') ->
  concat closed' ++ cur' = (concat closed ++ cur) ++ b /\ fine max closed' cur' sz'.
Proof.
  induction fuel as [|fuel IH]; intros max closed cur sz leftover b closed' cur' sz' Hc Hl Hs H; [discriminate|].
  cbn [spread] in H. destruct (Nat.ltb_spec leftover (length b)) as [L|L].
  - set (cur1 := if Nat.ltb 0 leftover then cur ++ firstn leftover b else cur) in *.
    set (b1 := if Nat.ltb 0 leftover then skipn leftover b else b) in *.
    assert (E : cur1 ++ b1 = cur ++ b /\ length cur1 = max).
    { subst cur1 b1. destruct (Nat.ltb_spec 0 leftover).
      - rewrite <- app_assoc, firstn_skipn, app_length, firstn_length. split; [reflexivity|lia].
      - split; [reflexivity|lia]. }
    destruct E as [E1 E2].
    apply IH in H; auto.
    + destruct H as [H1 H2]. split; [|exact H2]. rewrite H1, concat_app. cbn. rewrite !app_nil_r, <- !app_assoc, E1. reflexivity.
    + apply Forall_app. split; [exact Hc|]. constructor; [exact E2|constructor].
  - injection H as <- <- <-. split; [rewrite app_assoc; reflexivity|].
    split; [exact Hc|]. rewrite app_length. lia.
Qed.
Lemma spread_all_ok : forall fuel max stream closed cur sz fs,
  fine max closed cur sz -> spread_all fuel max closed cur sz stream = Ok fs ->
  concat fs = (concat closed ++ cur) ++ concat (map (fun b => match b with Some rs => rs | None => [] end) stream) /\
  Forall (fun f => length f <= max) fs /\ Forall (fun f => length f = max) (removelast fs) /\
  Forall (fun b => b <> None) stream.
Proof.
  intros fuel max stream. induction stream as [|[b|] stream IH]; intros closed cur sz fs F H; cbn [spread_all] in H; [| |discriminate].
  - injection H as <-. destruct F as (F1 & F2 & F3). rewrite concat_app. cbn. rewrite !app_nil_r.
    split; [reflexivity|]. split; [|split; [|constructor]].
    + apply Forall_app. split; [eapply Forall_impl; [|exact F1]; cbn; intros; lia|]. constructor; [lia|constructor].
    + rewrite removelast_last. exact F1.
  - destruct (spread _ _ _ _ _ _ _) as [| |[[closed' cur'] sz']] eqn:E; try discriminate.
    destruct F as (F1 & F2 & F3).
    apply spread_ok in E; auto; [|lia]. destruct E as [E1 E2].
    destruct (IH _ _ _ _ E2 H) as (G1 & G2 & G3 & G4).
    cbn [map concat]. rewrite G1, E1, <- !app_assoc. split; [reflexivity|]. split; [exact G2|]. split; [exact G3|].
    constructor; [discriminate|exact G4].
Qed.
Lemma plan_files_ok : forall fuel max parts fs, plan_files fuel max parts = Ok fs ->
  concat fs = @query_rows R parts /\ Forall (fun f => length f <= max) fs /\ Forall (fun f => length f = max) (removelast fs) /\
  no_error parts.
Proof.
  intros fuel max parts fs H. unfold plan_files in H. apply spread_all_ok in H; [exact H|].
  split; [constructor|]. split; [reflexivity|lia].
Qed.

Lemma spread_terminates : forall fuel max closed cur sz leftover b,
  max > 0 -> length b + (if Nat.eqb leftover 0 then 1 else 0) < fuel -> spread fuel max closed cur sz leftover b <> Spin.
Proof.
  induction fuel as [|fuel IH]; intros max closed cur sz leftover b Hm Hf; [lia|].
  cbn [spread]. destruct (Nat.ltb_spec leftover (length b)) as [L|L]; [|discriminate].
  apply IH; [exact Hm|]. destruct (Nat.eqb_spec leftover 0) as [Z|Z].
  - subst leftover. cbn. destruct (Nat.eqb_spec max 0); lia.
  - destruct (Nat.ltb_spec 0 leftover); [|lia]. rewrite skipn_length. destruct (Nat.eqb_spec max 0); lia.
Qed.
Lemma spread_no_fail : forall fuel max closed cur sz leftover b, spread fuel max closed cur sz leftover b <> @Fail _.
Proof.
  induction fuel as [|fuel IH]; intros; cbn [spread]; [discriminate|].
  destruct (Nat.ltb leftover (length b)); [apply IH|discriminate].
Qed.
Lemma spread_all_terminates : forall fuel max stream closed cur sz, max > 0 ->
  Forall (fun b => match b with Some rs => S (length rs) < fuel | None => True end) stream ->
  match spread_all fuel max closed cur sz stream with
  | Spin => False | Fail => ~ Forall (fun b => b <> None) stream | Ok _ => True end.
Proof.
  intros fuel max stream. induction stream as [|[b|] stream IH]; intros closed cur sz Hm Hf; cbn [spread_all]; [exact I| |].
  - inversion Hf as [|x l H1 H2]; subst.
    pose proof (spread_terminates fuel max closed cur sz (max - sz) b Hm) as T.
    pose proof (spread_no_fail fuel max closed cur sz (max - sz) b) as N.
    destruct (spread _ _ _ _ _ _ _) as [| |[[closed' cur'] sz']].
    + apply T; [|reflexivity]. destruct (Nat.eqb _ _); lia.
    + exfalso. apply N. reflexivity.
    + specialize (IH closed' cur' sz' Hm H2). destruct (spread_all _ _ _ _ _ _); auto.
      intros H. apply IH. inversion H; assumption.
  - intros H. inversion H; subst. congruence.
Qed.
Lemma spread_zero : forall fuel closed cur sz b, b <> [] -> spread fuel 0 closed cur sz 0 b = @Spin _.
Proof.
  induction fuel as [|fuel IH]; intros closed cur sz b Hb; cbn; [reflexivity|].
  destruct b; [congruence|]. cbn. apply IH. discriminate.
Qed.
Lemma spread_zero_nil : forall fuel closed cur sz, spread (S fuel) 0 closed cur sz 0 [] = @Ok (list (list R) * list R * nat) (closed, cur ++ [], sz + 0).
Proof. reflexivity. Qed.
Lemma spread_all_zero : forall fuel stream closed cur sz, Forall (fun b => b <> None) stream ->
  Exists (fun b : option (list R) => exists r rs, b = Some (r :: rs)) stream -> spread_all fuel 0 closed cur sz stream = Spin.
Proof.
  intros fuel stream. induction stream as [|[b|] stream IH]; intros closed cur sz Hn He; cbn [spread_all].
  - inversion He.
  - inversion Hn; subst. rewrite Nat.sub_0_l. destruct b as [|r rs].
    + destruct fuel as [|fuel]; [reflexivity|]. rewrite spread_zero_nil. apply IH; [assumption|].
      inversion He as [x l (r & rs & E)|x l He']; subst; [discriminate|exact He'].
    + rewrite spread_zero; [reflexivity|discriminate].
  - inversion Hn; subst. congruence.
Qed.

Lemma map_removelast : forall A B (f : A -> B) l, map f (removelast l) = removelast (map f l).
Proof. intros A B f l. induction l as [|x [|y l] IH]; [reflexivity|reflexivity|]. cbn [map removelast] in *. f_equal. exact IH. Qed.
(* uploads *)
Lemma collect_ok : forall up uuid fs i adds, collect_adds up uuid i fs = Ok adds ->
  map (@rows R) adds = fs /\ map (@path R) adds = map (fun j => (uuid, j)) (seq i (length fs)) /\
  Forall (fun j => up j = true) (seq i (length fs)).
Proof.
  intros up uuid fs. induction fs as [|f fs IH]; intros i adds H; cbn in H.
  - injection H as <-. cbn. repeat split; constructor.
  - destruct (collect_adds up uuid (S i) fs) as [| |l] eqn:E; try discriminate.
    destruct (up i) eqn:U; [|discriminate]. injection H as <-. destruct (IH _ _ E) as (H1 & H2 & H3). cbn.
    rewrite H1, H2. repeat split; auto.
Qed.
Lemma collect_total : forall up uuid fs i, Forall (fun j => up j = true) (seq i (length fs)) ->
  exists adds, collect_adds up uuid i fs = @Ok (list (file R)) adds.
Proof.
  intros up uuid fs. induction fs as [|f fs IH]; intros i H; cbn; [eauto|].
  cbn in H. inversion H as [|x l H1 H2]; subst. destruct (IH (S i) H2) as [adds ->]. rewrite H1. eauto.
Qed.
Lemma collect_not_spin : forall up uuid fs i, collect_adds up uuid i fs <> @Spin (list (file R)).
Proof.
  intros up uuid fs. induction fs as [|f fs IH]; intros i; cbn; [discriminate|].
  specialize (IH (S i)). destruct (collect_adds up uuid (S i) fs); [congruence|discriminate|]. destruct (up i); discriminate.
Qed.
Lemma adds_ok : forall fuel max up uuid parts adds, plan_to_delta_adds fuel max up uuid parts = Ok adds ->
  table_rows adds = @query_rows R parts /\ Forall (fun f => fst (path f) = uuid) adds /\ no_error parts /\ NoDup (map (@path R) adds).
Proof.
  intros fuel max up uuid parts adds H. unfold plan_to_delta_adds in H.
  destruct (plan_files fuel max parts) as [| |fs] eqn:E; try discriminate.
  apply plan_files_ok in E. destruct E as (E1 & _ & _ & E4). apply collect_ok in H. destruct H as (H1 & H2 & _).
  split; [unfold table_rows; rewrite flat_map_concat_map, H1; exact E1|]. split; [|split; [exact E4|]].
  - apply Forall_forall. intros f Hf. assert (P : In (path f) (map (@path R) adds)) by (apply in_map; exact Hf).
    rewrite H2 in P. apply in_map_iff in P. destruct P as (j & P & _). rewrite <- P. reflexivity.
  - rewrite H2. apply FinFun.Injective_map_NoDup; [|apply seq_NoDup]. intros a b E. injection E; auto.
Qed.
Lemma eqp_eq : forall a b, eqp a b = true <-> a = b.
Proof.
  intros [a1 a2] [b1 b2]. unfold eqp; cbn. rewrite andb_true_iff, !Nat.eqb_eq.
  split; [intros [-> ->]; reflexivity|intros H; injection H; auto].
Qed.
Lemma commit_rows_nil : forall (t adds : list (file R)), table_rows (commit t adds []) = table_rows t ++ table_rows adds.
Proof.
  intros. unfold commit, table_rows. rewrite flat_map_app. f_equal. f_equal.
  induction t as [|f t IH]; [reflexivity|]. cbn. f_equal. exact IH.
Qed.
Lemma filter_none : forall A (f : A -> bool) l, Forall (fun x => f x = false) l -> filter f l = [].
Proof. intros A f l H. induction H as [|x l Hx _ IH]; [reflexivity|]. cbn. rewrite Hx. exact IH. Qed.
Lemma commit_all : forall (t adds : list (file R)), commit t adds t = adds.
Proof.
  intros. unfold commit. rewrite filter_none; [reflexivity|]. apply Forall_forall. intros f Hf.
  apply negb_false_iff, existsb_exists. exists f. split; [exact Hf|]. apply eqp_eq. reflexivity.
Qed.
(* removing the selected files keeps the others *)
Lemma filter_selected : forall (t : list (file R)) keep, NoDup (map (@path R) t) -> length keep = length t ->
  filter (fun f => negb (existsb (fun g => eqp (path f) (path g)) (selected t keep))) t =
  map fst (filter (fun fk => negb (snd fk)) (combine t keep)).
Proof.
  intros t keep ND Hlen.
  assert (G : forall sub, (forall f, In f sub <-> In f (selected t keep)) ->
    forall t' keep', (forall f, In f t' -> In f t) -> NoDup (map (@path R) t') -> length keep' = length t' ->
    (forall f k, In (f, k) (combine t' keep') -> (In f sub <-> k = true)) ->
    filter (fun f => negb (existsb (fun g => eqp (path f) (path g)) sub)) t' = map fst (filter (fun fk => negb (snd fk)) (combine t' keep'))).
  { intros sub Hsub. induction t' as [|f t' IH]; intros keep' Hin ND' Hl Hk; [reflexivity|].
    destruct keep' as [|k keep']; [discriminate|]. cbn [combine filter].
    assert (IH' : filter (fun f => negb (existsb (fun g => eqp (path f) (path g)) sub)) t' =
                  map fst (filter (fun fk => negb (snd fk)) (combine t' keep'))).
    { apply IH.
      - intros g Hg. apply Hin. right. exact Hg.
      - inversion ND'; assumption.
      - cbn in Hl. lia.
      - intros g k' Hg. apply Hk. right. exact Hg. }
    pose proof (Hk f k (or_introl eq_refl)) as Hfk.
    assert (X : existsb (fun g => eqp (path f) (path g)) sub = k).
    { destruct k.
      - apply existsb_exists. exists f. split; [apply Hfk; reflexivity|]. apply eqp_eq. reflexivity.
      - destruct (existsb _ _) eqn:E; [|reflexivity]. apply existsb_exists in E. destruct E as (g & Hg & E).
        apply eqp_eq in E. exfalso.
        assert (g = f).
        { assert (Hgt : In g t).
          { apply Hsub in Hg. unfold selected in Hg. apply in_map_iff in Hg. destruct Hg as ([g' k'] & <- & Hg).
            apply filter_In in Hg. destruct Hg as [Hg _]. apply in_combine_l in Hg. exact Hg. }
          assert (Hft : In f t) by (apply Hin; left; reflexivity).
          clear - ND Hgt Hft E. induction t as [|x l IHl]; [contradiction|].
          cbn in ND. inversion ND as [|y l' N1 N2]; subst.
          destruct Hgt as [->|Hgt], Hft as [->|Hft]; auto.
          - exfalso. apply N1. rewrite <- E. apply in_map. exact Hft.
          - exfalso. apply N1. rewrite E. apply in_map. exact Hgt. }
        subst g. apply Hfk in Hg. discriminate. }
    rewrite X. cbn [snd]. destruct k; cbn [negb map fst]; [exact IH'|f_equal; exact IH']. }
  apply (G (selected t keep)); auto; [tauto|].
  intros f k Hfk. unfold selected. split.
  - intros H. apply in_map_iff in H. destruct H as ([g k'] & E & H). cbn in E. subst g. apply filter_In in H. destruct H as [H E].
    cbn in E. subst k'.
    clear - ND Hlen Hfk H. revert keep Hlen Hfk H. induction t as [|x l IHl]; intros keep Hlen Hfk H; [contradiction|].
    destruct keep as [|k0 keep]; [discriminate|]. cbn in ND. inversion ND as [|y l' N1 N2]; subst. cbn in *.
    destruct Hfk as [E1|Hfk], H as [E2|H].
    + congruence.
    + injection E1 as -> ->. exfalso. apply N1. apply in_map. apply in_combine_l in H. exact H.
    + injection E2 as -> ->. exfalso. apply N1. apply in_map. apply in_combine_l in Hfk. exact Hfk.
    + apply (IHl N2 keep); auto.
  - intros ->. apply in_map_iff. exists (f, true). split; [reflexivity|]. apply filter_In. auto.
Qed.
End Files.

(* multipart upload *)
Section Upload.
Context {B : Type}.
Lemma upload_complete : forall min sched (rest buf : list B), min > 0 -> length buf < min ->
  In Complete (upload min sched rest buf) ->
  concat (parts_of (upload min sched rest buf)) = buf ++ rest /\
  Forall (fun d => d <> []) (parts_of (upload min sched rest buf)) /\
  Forall (fun d => min <= length d) (removelast (parts_of (upload min sched rest buf))) /\
  ~ In Abort (upload min sched rest buf) /\
  (buf ++ rest = [] -> parts_of (upload min sched rest buf) = []).
Proof.
  intros min sched. induction sched as [|[[|n] ok] sched IH]; intros rest buf Hmin Hb H; cbn [upload] in *.
  - contradiction.
  - destruct H as [H|[]]; discriminate.
  - assert (Hsplit : buf ++ rest = (buf ++ firstn (S n) rest) ++ skipn (S n) rest) by (rewrite <- app_assoc, firstn_skipn; reflexivity).
    assert (Hgot : length (firstn (S n) rest) = 0 -> rest = []).
    { destruct rest; [reflexivity|cbn; discriminate]. }
    destruct (Nat.eqb_spec (length (firstn (S n) rest)) 0) as [Z|Z]; cbn [andb negb] in *.
    + destruct (Nat.eqb_spec (length (buf ++ firstn (S n) rest)) 0) as [Z2|Z2].
      * cbn. rewrite (Hgot Z). rewrite (Hgot Z) in Z2. cbn in Z2. rewrite app_nil_r in *. destruct buf; [|discriminate].
        repeat split; try constructor. intros [E|[]]. discriminate.
      * (* the rest at the end of the file *)
        pose proof (Hgot Z) as Er. subst rest. cbn [firstn skipn] in *. rewrite app_nil_r in *.
        assert (Hbuf : buf <> []) by (destruct buf; [cbn in Z2; congruence|discriminate]).
        destruct ok; [|destruct H as [H|[H|[]]]; discriminate].
        destruct H as [H|H]; [discriminate|].
        destruct (IH [] [] Hmin ltac:(cbn; lia) H) as (H1 & H2 & H3 & H4 & H5).
        specialize (H5 eq_refl). unfold parts_of in *. cbn [flat_map part_of app]. rewrite H5. cbn.
        rewrite app_nil_r. repeat split; auto.
        -- intros [E|E]; [discriminate|contradiction].
        -- intros E. contradiction.
    + destruct (Nat.ltb_spec (length (buf ++ firstn (S n) rest)) min) as [L|L].
      * destruct (IH _ _ Hmin L H) as (H1 & H2 & H3 & H4 & H5). rewrite Hsplit. repeat split; auto.
      * destruct ok; [|destruct H as [H|[H|[]]]; discriminate].
        destruct H as [H|H]; [discriminate|].
        destruct (IH (skipn (S n) rest) [] Hmin ltac:(cbn; lia) H) as (H1 & H2 & H3 & H4 & H5).
        unfold parts_of in *. cbn [flat_map part_of app]. repeat split.
        -- cbn [concat]. rewrite H1, Hsplit. reflexivity.
        -- constructor; [|exact H2]. intros E. rewrite E in L. cbn in L. lia.
        -- cbn [removelast]. destruct (flat_map part_of _); [constructor|]. constructor; [exact L|exact H3].
        -- intros [E|E]; [discriminate|contradiction].
        -- intros E. exfalso. rewrite Hsplit in E. apply app_eq_nil in E. destruct E as [E _]. rewrite E in L. cbn in L. lia.
Qed.
Lemma upload_terminates : forall min sched (rest buf : list B), min > 0 ->
  (length rest + (if Nat.eqb (length buf + length rest) 0 then 0 else 1) < length sched) ->
  finished (upload min sched rest buf).
Proof.
  intros min sched. induction sched as [|[[|n] ok] sched IH]; intros rest buf Hmin Hl; cbn [upload length] in *; [lia| |].
  - right. left. reflexivity.
  - destruct (Nat.eqb_spec (length (firstn (S n) rest)) 0) as [Z|Z]; cbn [andb negb].
    + assert (Er : rest = []) by (destruct rest; [reflexivity|cbn in Z; discriminate]). subst rest. cbn [firstn skipn] in *.
      rewrite app_nil_r.
      destruct (Nat.eqb_spec (length buf) 0) as [Z2|Z2]; [left; left; reflexivity|].
      destruct ok; [|right; right; left; reflexivity].
      assert (F : finished (upload min sched [] (@nil B))).
      { apply IH; [exact Hmin|]. cbn in *. rewrite Nat.add_0_r in Hl. destruct (Nat.eqb_spec (length buf) 0); [contradiction|]. lia. }
      destruct F as [F|F]; [left|right]; right; exact F.
    + assert (Hr : length (skipn (S n) rest) < length rest).
      { rewrite skipn_length. destruct rest; [cbn in Z; congruence|]. cbn [length]. lia. }
      assert (Hl' : forall b : list B, length (skipn (S n) rest) + (if Nat.eqb (length b + length (skipn (S n) rest)) 0 then 0 else 1) < length sched).
      { intros b. destruct (Nat.eqb_spec (length buf + length rest) 0); [lia|]. destruct (Nat.eqb _ 0); lia. }
      destruct (Nat.ltb _ _); [apply IH; auto|].
      destruct ok; [|right; right; left; reflexivity].
      destruct (IH (skipn (S n) rest) [] Hmin (Hl' [])) as [F|F]; [left|right]; right; exact F.
Qed.
End Upload.

(* DELETE *)
Section Del.
Context {R : Type}.
Lemma query_rows_map : forall (f : R -> bool) (scan : list (list (option (list R)))),
  query_rows (map (map (option_map (filter f))) scan) = filter f (query_rows scan).
Proof.
  intros f scan. unfold query_rows. rewrite <- concat_map, map_map.
  induction (concat scan) as [|b l IH]; [reflexivity|]. cbn [map concat]. rewrite filter_app, IH. f_equal.
  destruct b; reflexivity.
Qed.
Lemma Permutation_filter' : forall A (f : A -> bool) l l', Permutation l l' -> Permutation (filter f l) (filter f l').
Proof.
  intros A f l l' H. induction H as [|x l l' _ IH|x y l|l l' l'' _ IH1 _ IH2]; cbn.
  - constructor.
  - destruct (f x); [constructor; exact IH|exact IH].
  - destruct (f x), (f y); apply perm_swap || apply Permutation_refl.
  - eapply Permutation_trans; eassumption.
Qed.
Lemma split_rows : forall (t : list (file R)) keep, length keep = length t ->
  Permutation (table_rows t)
    (flat_map (fun fk => rows (fst fk)) (filter (fun fk => negb (snd fk)) (combine t keep)) ++
     flat_map (fun fk : file R * bool => if snd fk then rows (fst fk) else []) (combine t keep)).
Proof.
  induction t as [|f t IH]; intros keep Hl; destruct keep as [|k keep]; try discriminate; [constructor|].
  cbn [combine filter flat_map snd fst table_rows]. specialize (IH keep ltac:(cbn in Hl; lia)).
  destruct k; cbn [negb flat_map fst app].
  - eapply Permutation_trans; [apply Permutation_app_head; exact IH|]. rewrite !app_assoc. apply Permutation_app_tail, Permutation_app_comm.
  - rewrite <- app_assoc. apply Permutation_app_head. exact IH.
Qed.
Lemma prune_len : forall p (t : list (file R)) keep, prune_ok p t keep -> length keep = length t.
Proof. intros p t keep H. unfold prune_ok in H. symmetry. induction H; [reflexivity|]. cbn. f_equal. exact IHForall2. Qed.
Lemma filter_all : forall A (f : A -> bool) l, Forall (fun x => f x = true) l -> filter f l = l.
Proof. intros A f l H. induction H as [|x l Hx _ IH]; [reflexivity|]. cbn. rewrite Hx, IH. reflexivity. Qed.
Lemma pruned_survive : forall p (t : list (file R)) keep, prune_ok p t keep ->
  filter (survives p) (flat_map (fun fk => rows (fst fk)) (filter (fun fk => negb (snd fk)) (combine t keep))) =
  flat_map (fun fk => rows (fst fk)) (filter (fun fk => negb (snd fk)) (combine t keep)).
Proof.
  intros p t keep H. induction H as [|f k t keep Hfk H IH]; [reflexivity|].
  cbn [combine filter snd]. destruct k; cbn [negb]; [exact IH|]. cbn [flat_map fst]. rewrite filter_app, IH. f_equal.
  apply filter_all, Forall_forall. intros r Hr. unfold survives. specialize (Hfk eq_refl r Hr).
  destruct (p r) as [[|]|]; congruence.
Qed.

(* exactly what DELETE does: the untouched files stay, of the rewritten files the rows for which the predicate is false *)
Lemma delete_effect : forall fuel max up uuid (t : list (file R)) p keep scan t',
  good_table t uuid -> prune_ok p t keep -> scans_all t keep scan ->
  delete fuel max up uuid t (Some p) keep scan = Ok t' ->
  Permutation (table_rows t')
    (flat_map (fun fk => rows (fst fk)) (filter (fun fk => negb (snd fk)) (combine t keep)) ++
     filter (fun r => match p r with Some false => true | _ => false end)
            (flat_map (fun fk : file R * bool => if snd fk then rows (fst fk) else []) (combine t keep))) .
Proof.
  intros fuel max up uuid t p keep scan t' [ND _] Hp Hs H. unfold delete in H. pose proof (prune_len _ _ _ Hp) as Hl.
  destruct (selected t keep) as [|x xs] eqn:Es.
  - injection H as <-. rewrite commit_rows_nil. cbn. rewrite app_nil_r.
    eapply Permutation_trans; [apply (split_rows t keep Hl)|].
    assert (Z : flat_map (fun fk : file R * bool => if snd fk then rows (fst fk) else []) (combine t keep) = []).
    { clear - Es. unfold selected in Es. induction (combine t keep) as [|[f k] l IH]; [reflexivity|].
      cbn in *. destruct k; cbn in *; [discriminate|]. apply IH. exact Es. }
    rewrite Z. cbn. apply Permutation_refl.
  - rewrite <- Es in H. clear Es x xs. destruct (plan_to_delta_adds _ _ _ _ _) as [| |adds] eqn:Ea; try discriminate.
    injection H as <-. apply adds_ok in Ea. destruct Ea as (E1 & _ & _ & _).
    unfold commit, table_rows. rewrite flat_map_app, (filter_selected t keep ND Hl). apply Permutation_app.
    + rewrite !flat_map_concat_map, map_map. apply Permutation_refl.
    + fold (table_rows adds). rewrite E1, query_rows_map.
      eapply Permutation_trans; [apply Permutation_filter'; exact Hs|].
      rewrite (filter_ext (fun r => is_true3 (not3 (p r))) (fun r => match p r with Some false => true | _ => false end)); [apply Permutation_refl|].
      intros r. destruct (p r) as [[|]|]; reflexivity.
Qed.
End Del.

(* UPDATE *)
Section Upd.
Context {V : Type}.
Lemma project_none_sel : forall p (r : list V) es fields, length es = length fields -> is_true3 (p r) = false ->
  project (Some p) r es fields = Some fields.
Proof.
  intros p r es fields. revert es. induction fields as [|v fields IH]; intros es Hl H; destruct es as [|e es]; try discriminate; [reflexivity|].
  cbn [project]. rewrite H, IH; auto.
Qed.
Lemma project_sel : forall w (r : list V) es fields r', length es = length fields ->
  match w with Some p => p r = Some true | None => True end -> project w r es fields = Some r' ->
  Forall2 (fun e v => e r = Some v) es r'.
Proof.
  intros w r es fields. revert es. induction fields as [|v fields IH]; intros es r' Hl Hw H; destruct es as [|e es]; try discriminate.
  - injection H as <-. constructor.
  - cbn [project] in H.
    assert (E : (match w with Some p => if is_true3 (p r) then e r else Some v | None => e r end) = e r).
    { destruct w as [p|]; [|reflexivity]. rewrite Hw. reflexivity. }
    rewrite E in H. destruct (e r) eqn:Ee; [|discriminate]. destruct (project w r es fields) eqn:Ep; [|discriminate].
    injection H as <-. constructor; [exact Ee|]. apply (IH es l); auto.
Qed.
Lemma project_updated : forall w (r : list V) es r', length es = length r -> project w r es r = Some r' -> updated w es r r'.
Proof.
  intros w r es r' Hl H. destruct w as [p|].
  - destruct (is_true3 (p r)) eqn:E.
    + apply upd_sel; [destruct (p r) as [[|]|]; discriminate || reflexivity|]. constructor.
      apply (project_sel (Some p) r es r r'); auto. destruct (p r) as [[|]|]; discriminate || reflexivity.
    + rewrite (project_none_sel p r es r Hl E) in H. injection H as <-. apply (upd_not (Some p) es r p); [reflexivity|].
      intros E'. rewrite E' in E. discriminate.
  - apply upd_sel; [exact I|]. constructor. apply (project_sel None r es r r'); auto.
Qed.
Lemma map_err_forall : forall A B (f : A -> option B) l l', map_err f l = Some l' -> Forall2 (fun a b => f a = Some b) l l'.
Proof.
  intros A B f l. induction l as [|a l IH]; intros l' H; cbn in H; [injection H as <-; constructor|].
  destruct (f a) eqn:E; [|discriminate]. destruct (map_err f l); [|discriminate]. injection H as <-. constructor; auto.
Qed.
Lemma query_rows_err : forall A B (f : A -> option B) (scan : list (list (option (list A)))),
  no_error (map (map (fun b => match b with Some rs => map_err f rs | None => None end)) scan) ->
  Forall2 (fun a b => f a = Some b) (query_rows scan)
    (query_rows (map (map (fun b => match b with Some rs => map_err f rs | None => None end)) scan)).
Proof.
  intros A B f scan H. unfold no_error, query_rows in *. rewrite <- concat_map in *. rewrite map_map.
  induction (concat scan) as [|b l IH]; [constructor|]. cbn [map concat] in *. inversion H as [|x y H1 H2]; subst.
  apply Forall2_app; [|apply IH; exact H2]. destruct b as [rs|]; [|congruence].
  destruct (map_err f rs) eqn:E; [|congruence]. apply map_err_forall in E. exact E.
Qed.
Lemma Forall2_perm_l : forall A B (P : A -> B -> Prop) l l' m, Permutation l l' -> Forall2 P l m ->
  exists m', Permutation m m' /\ Forall2 P l' m'.
Proof.
  intros A B P l l' m H. revert m. induction H as [|x l l' _ IH|x y l|l l' l'' _ IH1 _ IH2]; intros m F.
  - inversion F; subst. exists []. split; constructor.
  - inversion F as [|a b c d Hab F']; subst. destruct (IH d F') as (m' & M1 & M2). exists (b :: m').
    split; [apply perm_skip; exact M1|constructor; assumption].
  - inversion F as [|a b c d Hab F']; subst. inversion F' as [|a2 b2 c2 d2 Hab2 F'']; subst.
    exists (b2 :: b :: d2). split; [apply perm_swap|constructor; [assumption|constructor; assumption]].
  - destruct (IH1 m F) as (m1 & M1 & M2). destruct (IH2 m1 M2) as (m2 & M3 & M4). exists m2. split; [eapply Permutation_trans; eassumption|exact M4].
Qed.
Lemma Forall2_refl_in : forall A (P : A -> A -> Prop) l, (forall x, In x l -> P x x) -> Forall2 P l l.
Proof. intros A P l. induction l as [|x l IH]; intros H; constructor; [apply H; left; reflexivity|apply IH; intros y Hy; apply H; right; exact Hy]. Qed.

Lemma update_effect : forall fuel max up uuid (t : list (file (list V))) w es keep scan t',
  good_table t uuid ->
  match w with Some p => prune_ok p t keep | None => keep = map (fun _ => true) t end ->
  scans_all t keep scan ->
  Forall (fun r => length r = length es) (table_rows t) ->
  update fuel max up uuid t w es keep scan = Ok t' ->
  exists l, Permutation (table_rows t') l /\ Forall2 (updated w es) (table_rows t) l.
Proof.
  intros fuel max up uuid t w es keep scan t' [ND _] Hp Hs Hlen H. unfold update in H.
  assert (Hl : length keep = length t).
  { destruct w; [apply (prune_len o); exact Hp|]. subst keep. apply map_length. }
  assert (Erem : match w with Some _ => selected t keep | None => t end = selected t keep).
  { destruct w; [reflexivity|]. subst keep. unfold selected. clear. induction t as [|f t IH]; [reflexivity|]. cbn. f_equal. exact IH. }
  rewrite Erem in H.
  assert (Unsel : forall r, In r (flat_map (fun fk => rows (fst fk)) (filter (fun fk => negb (snd fk)) (combine t keep))) -> updated w es r r).
  { intros r Hr. apply in_flat_map in Hr. destruct Hr as ([f k] & Hfk & Hr). apply filter_In in Hfk. destruct Hfk as [Hfk Ek].
    cbn in Ek, Hr. destruct k; [discriminate|]. destruct w as [p|].
    - apply (upd_not (Some p) es r p); [reflexivity|]. clear - Hp Hfk Hr. unfold prune_ok in Hp.
      induction Hp as [|f0 k0 t keep H0 H IH]; [contradiction|]. cbn in Hfk. destruct Hfk as [E|Hfk].
      + injection E as -> ->. apply H0; auto.
      + apply IH; assumption.
    - exfalso. subst keep. clear - Hfk. induction t as [|f0 t IH]; [contradiction|]. cbn in Hfk.
      destruct Hfk as [E|E]; [discriminate|apply IH; exact E]. }
  destruct (selected t keep) as [|x xs] eqn:Es.
  - injection H as <-. exists (table_rows t). rewrite commit_rows_nil. cbn. rewrite app_nil_r. split; [apply Permutation_refl|].
    apply Forall2_refl_in. intros r Hr. apply Unsel.
    pose proof (Permutation_in _ (split_rows t keep Hl) Hr) as Hr'. apply in_app_or in Hr'. destruct Hr' as [Hr'|Hr']; [exact Hr'|].
    exfalso. apply in_flat_map in Hr'. destruct Hr' as ([f k] & Hfk & Hr'). cbn in Hr'. destruct k; [|contradiction].
    assert (In f (selected t keep)) by (unfold selected; apply in_map_iff; exists (f, true); split; [reflexivity|]; apply filter_In; auto).
    rewrite Es in H. contradiction.
  - rewrite <- Es in H. clear Es x xs Erem.
    destruct (plan_to_delta_adds _ _ _ _ _) as [| |adds] eqn:Ea; try discriminate. injection H as <-.
    apply adds_ok in Ea. destruct Ea as (E1 & _ & E3 & _).
    pose proof (query_rows_err _ _ (fun r => project w r es r) scan E3) as Q.
    rewrite <- E1 in Q.
    set (U := flat_map (fun fk => rows (fst fk)) (filter (fun fk => negb (snd fk)) (combine t keep))) in *.
    set (S := flat_map (fun fk : file (list V) * bool => if snd fk then rows (fst fk) else []) (combine t keep)) in *.
    assert (Q1 : Forall2 (updated w es) (query_rows scan) (table_rows adds)).
    { assert (Hrows : Forall (fun r => length r = length es) (query_rows scan)).
      { apply Forall_forall. intros r Hr. rewrite Forall_forall in Hlen. apply Hlen.
        apply (Permutation_in _ Hs) in Hr. apply (Permutation_in _ (Permutation_sym (split_rows t keep Hl))).
        apply in_or_app. right. exact Hr. }
      clear - Q Hrows. induction Q as [|a b l l' H1 H2 IH]; [constructor|]. inversion Hrows; subst.
      constructor; [apply project_updated; auto|apply IH; assumption]. }
    destruct (Forall2_perm_l _ _ _ _ _ _ Hs Q1) as (m & M1 & M2).
    assert (F : Forall2 (updated w es) (U ++ S) (U ++ m)) by (apply Forall2_app; [apply Forall2_refl_in; exact Unsel|exact M2]).
    destruct (Forall2_perm_l _ _ _ _ _ _ (Permutation_sym (split_rows t keep Hl)) F) as (l & L1 & L2).
    exists l. split; [|exact L2]. eapply Permutation_trans; [|exact L1].
    unfold commit, table_rows. rewrite flat_map_app, (filter_selected t keep ND Hl). apply Permutation_app.
    + unfold U. rewrite !flat_map_concat_map, map_map. apply Permutation_refl.
    + fold (table_rows adds). exact M1.
Qed.
End Upd.

(* more about uploads: the calls of a longer schedule *)
Section Upload2.
Context {B : Type}.
Lemma upload_app : forall min s1 (rest buf : list B), ~ finished (upload min s1 rest buf) ->
  exists rest' buf', forall s2, upload min (s1 ++ s2) rest buf = upload min s1 rest buf ++ upload min s2 rest' buf'.
Proof.
  intros min s1. induction s1 as [|[[|n] ok] s1 IH]; intros rest buf H; cbn [upload app] in *.
  - exists rest, buf. reflexivity.
  - exfalso. apply H. right. left. reflexivity.
  - destruct (_ && _); [exfalso; apply H; left; left; reflexivity|].
    destruct (_ && _); [apply IH; exact H|].
    destruct ok; [|exfalso; apply H; right; right; left; reflexivity].
    destruct (IH (skipn (S n) rest) []) as (r & b & E).
    + intros [F|F]; apply H; [left|right]; right; exact F.
    + exists r, b. intros s2. cbn [app]. rewrite E. reflexivity.
Qed.
Lemma upload_end : forall min s (rest buf : list B) a c b, upload min s rest buf = a ++ c :: b -> c = Complete \/ c = Abort -> b = [].
Proof.
  intros min s. induction s as [|[[|n] ok] s IH]; intros rest buf a c b H Hc; cbn [upload] in H.
  - destruct a; discriminate.
  - destruct a as [|x [|y a]]; cbn in H; [injection H; auto|discriminate|discriminate].
  - destruct (_ && _); [destruct a as [|x [|y a]]; cbn in H; [injection H; auto|discriminate|discriminate]|].
    destruct (_ && _); [apply (IH _ _ _ _ _ H Hc)|].
    destruct a as [|x a]; cbn in H; injection H as H1 H2.
    + subst c. destruct Hc; discriminate.
    + destruct ok; [apply (IH _ _ _ _ _ H2 Hc)|]. destruct a as [|y [|z a]]; cbn in H2; [injection H2; auto|discriminate|discriminate].
Qed.
End Upload2.

(* versions *)
Lemma exec_all_app : forall a b v, fold_left exec (a ++ b) v = fold_left exec b (fold_left exec a v).
Proof. intros. apply fold_left_app. Qed.
Lemma exec_equal : forall ss v, in_catalog v = in_log v ->
  Forall (fun s => fst s <> STruncate /\ snd s = false) ss -> in_catalog (fold_left exec ss v) = in_log (fold_left exec ss v).
Proof.
  induction ss as [|[s c] ss IH]; intros v E H; [exact E|]. inversion H as [|x l [H1 H2] H3]; subst. cbn in H1, H2. subst c.
  cbn [fold_left]. apply IH; [|exact H3]. unfold exec. cbn. destruct s; cbn; rewrite ?E; congruence || reflexivity.
Qed.
Lemma exec_sub : forall ss v, incl (in_catalog v) (in_log v) -> incl (in_catalog (fold_left exec ss v)) (in_log (fold_left exec ss v)).
Proof.
  induction ss as [|s ss IH]; intros v H; [exact H|]. cbn [fold_left]. apply IH. unfold exec; cbn [in_log in_catalog].
  destruct (_ && _).
  - apply incl_app; [apply incl_appl; exact H|apply incl_appr, incl_refl].
  - apply incl_appl. exact H.
Qed.
