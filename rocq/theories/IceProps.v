(* C148, C149: INSERT into Iceberg tables. Specification: IceSpec.v. Model: IceModel.v. *)
From Coq Require Import List Arith Bool Lia.
From Verif Require Import IceModel IceSpec.
Import ListNotations.

Lemma assoc_in {A} k (v : A) l : NoDup (map fst l) -> In (k, v) l -> assoc k l = Some v.
Proof.
  unfold assoc. induction l as [|[k' v'] l IH]; [contradiction|]. cbn. intros Hn Hin. inversion Hn as [|? ? N1 N2]; subst.
  destruct (Nat.eqb_spec k' k) as [->|N].
  - destruct Hin as [E|H]; [inversion E; reflexivity|]. exfalso. apply N1. change k with (fst (k, v)). apply in_map. exact H.
  - destruct Hin as [E|H]; [inversion E; contradiction|]. apply IH; assumption.
Qed.
Lemma assoc_some {A} k (v : A) l : assoc k l = Some v -> In (k, v) l.
Proof.
  unfold assoc. destruct (find _ l) as [[k' v']|] eqn:E; [|discriminate]. intros H. inversion H; subst.
  apply find_some in E as [E1 E2]. cbn in E2. apply Nat.eqb_eq in E2. subst. exact E1.
Qed.
Lemma assoc_none {A} k (l : list (nat * A)) : assoc k l = None -> ~ In k (map fst l).
Proof.
  unfold assoc. destruct (find _ l) eqn:E; [discriminate|]. intros _ H. apply in_map_iff in H as ([k' v] & <- & H).
  pose proof (find_none _ _ E _ H) as N. cbn in N. rewrite Nat.eqb_refl in N. discriminate N.
Qed.
Lemma find_key {A} (key : A -> nat) (x : A) l : NoDup (map key l) -> In x l -> find (fun y => Nat.eqb (key y) (key x)) l = Some x.
Proof.
  induction l as [|y l IH]; [contradiction|]. cbn. intros Hn Hin. inversion Hn as [|? ? N1 N2]; subst.
  destruct (Nat.eqb_spec (key y) (key x)) as [E|N].
  - destruct Hin as [->|H]; [reflexivity|]. exfalso. apply N1. rewrite E. apply in_map. exact H.
  - destruct Hin as [->|H]; [contradiction|]. apply IH; assumption.
Qed.
Lemma mname_eqb_eq a b : mname_eqb a b = true <-> a = b.
Proof. destruct a, b; cbn; try rewrite Nat.eqb_eq; split; congruence. Qed.

Section L.
Context {V : Type}.
Implicit Types m : metadata V.
Implicit Types d : dir V.
Lemma get_kept d n x l : get d n <> None -> get {| hint := x; mfiles := mfiles d ++ l |} n = get d n.
Proof.
  unfold get. cbn. intros H. induction (mfiles d) as [|y ys IH]; [contradiction|]. cbn in *.
  destruct (mname_eqb (fst y) n); [reflexivity|]. apply IH. exact H.
Qed.
Lemma get_new d n x m : get d n = None -> get {| hint := x; mfiles := mfiles d ++ [(n, m)] |} n = Some m.
Proof.
  unfold get. cbn. intros H. induction (mfiles d) as [|y ys IH]; cbn in *.
  - rewrite (proj2 (mname_eqb_eq n n) eq_refl). reflexivity.
  - destruct (mname_eqb (fst y) n); [discriminate|]. apply IH. exact H.
Qed.
Lemma get_in d n m : get d n = Some m -> In (n, m) (mfiles d).
Proof.
  unfold get. destruct (find _ _) as [[n' m']|] eqn:E; [|discriminate]. intros H. inversion H; subst.
  apply find_some in E as [E1 E2]. cbn in E2. apply mname_eqb_eq in E2. subst. exact E1.
Qed.
Lemma get_none d n : get d n = None -> ~ In n (map fst (mfiles d)).
Proof.
  unfold get. destruct (find _ _) eqn:E; [discriminate|]. intros _ H. apply in_map_iff in H as ([n' v] & <- & H).
  pose proof (find_none _ _ E _ H) as N. cbn in N. rewrite (proj2 (mname_eqb_eq n' n') eq_refl) in N. discriminate N.
Qed.
Lemma get_valid d n m : valid_dir d -> get d n = Some m -> valid m.
Proof. intros [_ H] G. rewrite Forall_forall in H. exact (H _ (get_in _ _ _ G)). Qed.
Lemma current_of m fs : valid m -> In (current_schema_id m, fs) (schemas m) -> current_schema m = fs.
Proof. intros Hv Hin. unfold current_schema. rewrite (assoc_in _ _ _ (v_schemas m Hv) Hin). reflexivity. Qed.
Lemma current_in m : valid m -> In (current_schema_id m, current_schema m) (schemas m).
Proof. intros Hv. destruct (v_current m Hv) as (fs & H). rewrite (current_of m fs Hv H). exact H. Qed.
Lemma snap_of m s : valid m -> main m = Some (s_id s) -> In s (snapshots m) -> current_snapshot m = Some s.
Proof. intros Hv Hm Hin. unfold current_snapshot. rewrite Hm. exact (find_key s_id s _ (v_snapshots m Hv) Hin). Qed.
Lemma snap_some m : valid m -> main m <> None -> exists s, current_snapshot m = Some s /\ In s (snapshots m) /\ main m = Some (s_id s).
Proof.
  intros Hv Hm. destruct (main m) as [i|] eqn:E; [|contradiction]. pose proof (v_main m Hv i E) as H.
  apply in_map_iff in H as (s & <- & H). exists s. split; [apply snap_of; assumption|]. split; [exact H|reflexivity].
Qed.

(* the two shapes of a successful insert *)
Definition add_to m (fs : list field) (rows : list (list V)) (id : nat) : metadata V :=
  {| schemas := schemas m; current_schema_id := current_schema_id m; specs := specs m;
     snapshots := snapshots m ++ [{| s_id := id; s_parent := None; s_schema := 0; s_seq := last_sequence_number m + 1;
       s_files := (match current_snapshot m with Some s => s_files s | None => [] end) ++ [{| f_spec := 0; f_part := []; f_rows := map (write_row fs) rows |}] |}];
     main := Some id; last_sequence_number := last_sequence_number m + 1 |}.
Lemma insert_hint d cs rows id d' h : hint d = Some h -> record_batches_to_iceberg d cs rows id = (d', true) ->
  exists m, get d (Vn h) = Some m /\ is_schema_aligned cs (current_schema m) = true /\ ~ In id (map s_id (snapshots m)) /\
    get d (Vn (h + 1)) = None /\ d' = {| hint := Some (h + 1); mfiles := mfiles d ++ [(Vn (h + 1), add_to m (current_schema m) rows id)] |}.
Proof.
  intros Hh H. unfold record_batches_to_iceberg in H. rewrite Hh in H. destruct (get d (Vn h)) as [m|] eqn:G; [|discriminate].
  exists m. split; [reflexivity|]. destruct (is_schema_aligned cs (current_schema m)) eqn:A; [|discriminate]. split; [reflexivity|].
  unfold update_metadata_snapshot in H. cbn [s_id s_seq] in H.
  destruct (existsb _ (snapshots m)) eqn:E; [discriminate|]. destruct (get d (Vn (h + 1))) eqn:G2; [discriminate|]. split.
  - intros X. apply in_map_iff in X as (s & Es & X). assert (T : existsb (fun x => Nat.eqb (s_id x) id) (snapshots m) = true).
    { apply existsb_exists. exists s. split; [exact X|apply Nat.eqb_eq; exact Es]. } congruence.
  - split; [reflexivity|]. inversion H. unfold add_to. destruct (current_snapshot m); reflexivity.
Qed.
Lemma insert_none d cs rows id : hint d = None -> get d (Vn 0) = None ->
  record_batches_to_iceberg d cs rows id =
  ({| hint := Some 0; mfiles := mfiles d ++ [(Vn 0, add_to (create_empty_metadata (assign_field_ids 1 cs)) (assign_field_ids 1 cs) rows id)] |}, true).
Proof. intros Hh G. unfold record_batches_to_iceberg. rewrite Hh. cbn. rewrite G. reflexivity. Qed.
Lemma insert_shape d cs rows id d' : record_batches_to_iceberg d cs rows id = (d', true) ->
  exists v m fs, get d (Vn v) = None /\ d' = {| hint := Some v; mfiles := mfiles d ++ [(Vn v, add_to m fs rows id)] |} /\
    (hint d = None /\ m = create_empty_metadata fs /\ fs = assign_field_ids 1 cs \/
     exists h, hint d = Some h /\ v = h + 1 /\ get d (Vn h) = Some m /\ fs = current_schema m /\ is_schema_aligned cs fs = true /\ ~ In id (map s_id (snapshots m))).
Proof.
  intros H. destruct (hint d) as [h|] eqn:Hh.
  - destruct (insert_hint d cs rows id d' h Hh H) as (m & G & A & N & G2 & E). exists (h + 1), m, (current_schema m).
    split; [exact G2|]. split; [exact E|]. right. exists h. auto 8.
  - destruct (get d (Vn 0)) as [x|] eqn:G.
    + unfold record_batches_to_iceberg in H. rewrite Hh in H. cbn in H. rewrite G in H. discriminate.
    + rewrite (insert_none d cs rows id Hh G) in H. inversion H. exists 0, (create_empty_metadata (assign_field_ids 1 cs)), (assign_field_ids 1 cs).
      split; [exact G|]. split; [reflexivity|]. left. auto.
Qed.
Lemma assign_len n cs : length (assign_field_ids n cs) = length cs.
Proof. revert n. induction cs as [|c cs IH]; intros n; cbn; [reflexivity|]. rewrite IH. reflexivity. Qed.
Lemma aligned_len cs fs : is_schema_aligned cs fs = true -> length fs = length cs.
Proof.
  unfold is_schema_aligned. destruct (Nat.eqb_spec (length fs) (length (assign_field_ids 1 cs))) as [E|E]; [|discriminate].
  intros _. rewrite E. apply assign_len.
Qed.
Lemma assign_ge n cs x : In x (map fid (assign_field_ids n cs)) -> n <= x.
Proof. revert n. induction cs as [|c cs IH]; intros n H; cbn in *; [contradiction|]. destruct H as [<-|H]; [lia|]. apply IH in H. lia. Qed.
Lemma assign_fids n cs : NoDup (map fid (assign_field_ids n cs)).
Proof.
  revert n. induction cs as [|c cs IH]; intros n; cbn; constructor; [|apply IH]. intros H. apply assign_ge in H. lia.
Qed.
Lemma assign_names n cs : map fname (assign_field_ids n cs) = map c_name cs.
Proof. revert n. induction cs as [|c cs IH]; intros n; cbn; [reflexivity|]. rewrite IH. reflexivity. Qed.

(* what a row holds for the columns *)
Definition cell (r : list (nat * V)) (f : field) (v : option V) : Prop :=
  (forall x, v = Some x -> In (fid f, x) r) /\ (v = None -> ~ In (fid f) (map fst r)).
Lemma combine_fst {A B} (a : list A) (b : list B) : length b = length a -> map fst (combine a b) = a.
Proof. revert b. induction a as [|x a IH]; intros [|y b] H; cbn in *; try discriminate; [reflexivity|]. rewrite IH by lia. reflexivity. Qed.
Lemma write_cells fs r : length r = length fs -> Forall2 (cell (write_row fs r)) fs (map Some r).
Proof.
  intros Hl. unfold write_row.
  assert (G : forall fs0 r0 (l : list (nat * V)), length r0 = length fs0 -> (forall x, In x (combine (map fid fs0) r0) -> In x l) -> Forall2 (cell l) fs0 (map Some r0)).
  { induction fs0 as [|f fs0 IH]; intros [|v r0] l L H; cbn in *; try discriminate; constructor.
    - split; [|discriminate]. intros x E. inversion E; subst. apply H. left. reflexivity.
    - apply IH; [lia|]. intros x Hx. apply H. right. exact Hx. }
  apply G; [exact Hl|auto].
Qed.
Lemma cell_fun r f a b : NoDup (map fst r) -> cell r f a -> cell r f b -> a = b.
Proof.
  intros Hn [A1 A2] [B1 B2]. destruct a as [x|], b as [y|]; try reflexivity.
  - f_equal. assert (E1 := assoc_in _ _ _ Hn (A1 x eq_refl)). assert (E2 := assoc_in _ _ _ Hn (B1 y eq_refl)). congruence.
  - exfalso. apply (B2 eq_refl). change (fid f) with (fst (fid f, x)). apply in_map. apply A1. reflexivity.
  - exfalso. apply (A2 eq_refl). change (fid f) with (fst (fid f, y)). apply in_map. apply B1. reflexivity.
Qed.
Lemma cell_assoc r f : NoDup (map fst r) -> cell r f (assoc (fid f) r).
Proof.
  intros Hn. destruct (assoc (fid f) r) as [x|] eqn:E; split; try discriminate.
  - intros y Ey. inversion Ey; subst. apply assoc_some. exact E.
  - intros _. apply assoc_none. exact E.
Qed.
Lemma cells_fun r fs a b : NoDup (map fst r) -> Forall2 (cell r) fs a -> Forall2 (cell r) fs b -> a = b.
Proof.
  intros Hn A. revert b. induction A as [|f x fs a H1 H2 IH]; intros b B; inversion B; subst; [reflexivity|].
  f_equal; [eapply cell_fun; eassumption|apply IH; assumption].
Qed.
Lemma rows_fun fs rs a b : Forall (fun r => NoDup (map fst r)) rs ->
  Forall2 (fun r => Forall2 (cell r) fs) rs a -> Forall2 (fun r => Forall2 (cell r) fs) rs b -> a = b.
Proof.
  intros Hn A. revert b Hn. induction A as [|r x rs a H1 H2 IH]; intros b Hn B; inversion B; subst; [reflexivity|].
  inversion Hn; subst. f_equal; [eapply cells_fun; eassumption|apply IH; assumption].
Qed.
Lemma file_rows m s : valid m -> In s (snapshots m) -> Forall (fun r => NoDup (map fst r)) (flat_map f_rows (s_files s)).
Proof.
  intros Hv Hin. apply Forall_forall. intros r Hr. apply in_flat_map in Hr as (f & Hf & Hr). exact (v_rows m Hv s f r Hin Hf Hr).
Qed.
Lemma holds_fun m a b : valid m -> holds m a -> holds m b -> a = b.
Proof.
  intros Hv A B. destruct A as [fs M I|i s fs l M I1 I2 I3 F], B as [fs' M' I'|i' s' fs' l' M' I1' I2' I3' F']; try congruence.
  assert (s = s').
  { subst. pose proof (snap_of m s Hv M I1). rewrite M in M'. inversion M'.
    assert (M2 : main m = Some (s_id s')) by congruence. pose proof (snap_of m s' Hv M2 I1'). congruence. }
  subst s'. pose proof (current_of m fs Hv I3). pose proof (current_of m fs' Hv I3'). subst fs fs'.
  exact (rows_fun _ _ _ _ (file_rows m s Hv I1) F F').
Qed.
Lemma holds_add m fs rows id l : valid m -> fs = current_schema m -> ~ In id (map s_id (snapshots m)) -> Forall (fun r => length r = length fs) rows ->
  holds m l -> holds (add_to m fs rows id) (l ++ map (map Some) rows).
Proof.
  intros Hv -> Hid Hl H.
  assert (W : Forall2 (fun r => Forall2 (cell r) (current_schema m)) (map (write_row (current_schema m)) rows) (map (map Some) rows)).
  { clear - Hl. induction Hl as [|r rows H1 H2 IH]; cbn; constructor; [apply write_cells; exact H1|exact IH]. }
  eapply (holds_some (add_to m (current_schema m) rows id) id); cbn [add_to main snapshots schemas current_schema_id].
  - reflexivity.
  - apply in_app_iff. right. left. reflexivity.
  - reflexivity.
  - apply current_in. exact Hv.
  - cbn [s_files]. destruct H as [fs M I|i s fs l M I1 I2 I3 F].
    + unfold current_snapshot. rewrite M. cbn. rewrite app_nil_r. exact W.
    + subst i. rewrite (snap_of m s Hv M I1). rewrite flat_map_app. cbn. rewrite app_nil_r.
      pose proof (current_of m fs Hv I3). subst fs. apply Forall2_app; [exact F|exact W].
Qed.
Lemma valid_add m fs rows id : valid m -> In (current_schema_id m, fs) (schemas m) -> ~ In id (map s_id (snapshots m)) ->
  Forall (fun r => length r = length fs) rows -> valid (add_to m fs rows id).
Proof.
  intros Hv Hfs Hid Hl. constructor; cbn [add_to schemas current_schema_id snapshots main last_sequence_number].
  - exact (v_schemas m Hv).
  - exact (v_current m Hv).
  - exact (v_fields m Hv).
  - rewrite map_app. cbn. apply (NoDup_Add (a := id) (l := map s_id (snapshots m))).
    + rewrite <- (app_nil_r (map s_id (snapshots m))) at 1. apply Add_app.
    + split; [exact (v_snapshots m Hv)|exact Hid].
  - intros i E. inversion E; subst. rewrite map_app. apply in_app_iff. right. left. reflexivity.
  - apply Forall_app. split; [eapply Forall_impl; [|exact (v_seq m Hv)]; cbn; intros; lia|]. constructor; [cbn; lia|constructor].
  - intros s f r Hs Hf Hr. apply in_app_iff in Hs as [Hs|[<-|[]]]; [exact (v_rows m Hv s f r Hs Hf Hr)|]. cbn in Hf.
    apply in_app_iff in Hf as [Hf|[<-|[]]].
    + destruct (current_snapshot m) as [s|] eqn:E; [|contradiction]. unfold current_snapshot in E. destruct (main m); [|discriminate].
      apply find_some in E as [E _]. exact (v_rows m Hv s f r E Hf Hr).
    + cbn in Hr. apply in_map_iff in Hr as (r0 & <- & Hr0). unfold write_row. rewrite Forall_forall in Hl.
      rewrite combine_fst by (rewrite map_length; exact (Hl r0 Hr0)). exact (proj2 (v_fields m Hv _ _ Hfs)).
Qed.
Lemma valid_empty cs : NoDup (map c_name cs) -> valid (create_empty_metadata (V := V) (assign_field_ids 1 cs)).
Proof.
  intros Hn. constructor; cbn.
  - constructor; [intros []|constructor].
  - eexists. left. reflexivity.
  - intros i fs [E|[]]. inversion E; subst. split; [rewrite assign_names; exact Hn|apply assign_fids].
  - constructor.
  - discriminate.
  - constructor.
  - intros s f r [].
Qed.
End L.

(* C148. The content of the table by the specification is a function of its metadata. *)
Theorem c148_holds_unique : forall (V : Type) (m : metadata V) a b, valid m -> holds m a -> holds m b -> a = b.
Proof. intros V m a b. apply holds_fun. Qed.
Print Assumptions c148_holds_unique.
(* A successful insert into a table with a version hint writes a version with the rows of the version that the hint names,
   followed by the inserted rows; *)
Theorem c148_partial : forall (V : Type) (d d' : dir V) cs rows id h m l,
  valid_dir d -> hint d = Some h -> get d (Vn h) = Some m -> holds m l -> Forall (fun r => length r = length cs) rows ->
  record_batches_to_iceberg d cs rows id = (d', true) ->
  hint d' = Some (h + 1) /\ exists m', get d' (Vn (h + 1)) = Some m' /\ valid m' /\ holds m' (l ++ map (map Some) rows).
Proof.
  intros V d d' cs rows id h m l Hd Hh G Hl Hr H. destruct (insert_hint d cs rows id d' h Hh H) as (m0 & G0 & A & N & G2 & ->).
  rewrite G in G0. inversion G0; subst m0. pose proof (get_valid d _ m Hd G) as Hv. split; [reflexivity|].
  exists (add_to m (current_schema m) rows id). split; [apply get_new; exact G2|].
  assert (L : Forall (fun r => length r = length (current_schema m)) rows) by (rewrite (aligned_len _ _ A); exact Hr).
  split; [apply valid_add; auto using current_in|apply holds_add; auto].
Qed.
Print Assumptions c148_partial.
(* no metadata file is changed, and a refused insert changes nothing at all. *)
Theorem c148_others : forall (V : Type) (d d' : dir V) cs rows id ok, record_batches_to_iceberg d cs rows id = (d', ok) ->
  (ok = false -> d' = d) /\ forall n m, get d n = Some m -> get d' n = Some m.
Proof.
  intros V d d' cs rows id ok H. destruct ok.
  - split; [discriminate|]. intros n m G. destruct (insert_shape d cs rows id d' H) as (v & m0 & fs & _ & -> & _).
    rewrite get_kept; [exact G|congruence].
  - assert (d' = d); [|subst; auto]. unfold record_batches_to_iceberg in H.
    repeat match type of H with
    | (match ?x with _ => _ end) = _ => destruct x as [[]|]; try (inversion H; reflexivity); try discriminate H
    | (match ?x with _ => _ end) = _ => destruct x; try (inversion H; reflexivity); try discriminate H
    end.
Qed.
Print Assumptions c148_others.
(* With a version hint an insert succeeds exactly if the columns of the rows fit those of the table, one by one (unless the
   random id of the snapshot or the name of the next metadata file is taken). *)
Theorem c148_fits : forall (V : Type) (d : dir V) cs rows id h m fs,
  valid_dir d -> hint d = Some h -> get d (Vn h) = Some m -> In (current_schema_id m, fs) (schemas m) ->
  ~ In id (map s_id (snapshots m)) -> get d (Vn (h + 1)) = None ->
  (snd (record_batches_to_iceberg d cs rows id) = true <->
   Forall2 (fun f c => ftype f = c_type c /\ (required f = true -> c_required c = true)) fs cs).
Proof.
  intros V d cs rows id h m fs Hd Hh G Hf Hid G2. pose proof (get_valid d _ m Hd G) as Hv.
  assert (Ef : current_schema m = fs).
  { unfold current_schema. destruct (assoc (current_schema_id m) (schemas m)) as [fs'|] eqn:A.
    - unfold assoc in A. destruct (find _ _) as [[i x]|] eqn:F; [|discriminate]. inversion A; subst x. apply find_some in F as [F1 F2].
      apply Nat.eqb_eq in F2. cbn in F2. subst i. pose proof (v_schemas m Hv) as Nd. clear - Nd F1 Hf.
      induction (schemas m) as [|[a b] l IH]; [contradiction|]. cbn in Nd. inversion Nd as [|? ? N1 N2]; subst.
      destruct F1 as [F1|F1], Hf as [Hf|Hf].
      + congruence.
      + exfalso. apply N1. inversion F1; subst. change (current_schema_id m) with (fst (current_schema_id m, fs)). apply in_map. exact Hf.
      + exfalso. apply N1. inversion Hf; subst. change (current_schema_id m) with (fst (current_schema_id m, fs')). apply in_map. exact F1.
      + apply IH; assumption.
    - unfold assoc in A. destruct (find _ _) eqn:F; [discriminate|]. pose proof (find_none _ _ F _ Hf) as X. cbn in X. rewrite Nat.eqb_refl in X. discriminate. }
  assert (Al : is_schema_aligned cs fs = true <-> Forall2 (fun f c => ftype f = c_type c /\ (required f = true -> c_required c = true)) fs cs).
  { unfold is_schema_aligned. generalize 1. clear. intros n. revert cs n. induction fs as [|f fs IH]; intros [|c cs] n; cbn.
    - split; [constructor|reflexivity].
    - split; [discriminate|intros X; inversion X].
    - split; [discriminate|intros X; inversion X].
    - specialize (IH cs (S n)). destruct (Nat.eqb (length fs) (length (assign_field_ids (S n) cs))); cbn in *.
      + rewrite !andb_true_iff, Nat.eqb_eq. split.
        * intros [[X Y] Z]. constructor; [|apply IH; exact Z]. split; [exact Y|]. intros E. rewrite E in X. destruct (c_required c); [reflexivity|discriminate].
        * intros X. inversion X as [|? ? ? ? [A B] C]; subst. split; [split; [|exact A]|apply IH; exact C].
          destruct (required f); [rewrite B; reflexivity|reflexivity].
      + split; [discriminate|]. intros X. inversion X as [|? ? ? ? _ C]; subst. apply IH in C. discriminate. }
  rewrite <- Al. unfold record_batches_to_iceberg. rewrite Hh, G, Ef. destruct (is_schema_aligned cs fs); [|split; intros X; exact X].
  split; [reflexivity|]. intros _. unfold update_metadata_snapshot. cbn [s_id].
  replace (existsb (fun x => Nat.eqb (s_id x) id) (snapshots m)) with false.
  - rewrite G2. reflexivity.
  - symmetry. destruct (existsb _ _) eqn:X; [|reflexivity]. apply existsb_exists in X as (x & X1 & X2). apply Nat.eqb_eq in X2. exfalso. apply Hid. rewrite <- X2. apply in_map. exact X1.
Qed.
Print Assumptions c148_fits.
(* The table is read from the metadata file that it was registered with: after a successful insert a query of the table yields
   exactly what it yielded before, and not the inserted rows. *)
Theorem c148_unseen_refuted : forall (V : Type) (d d' : dir V) cs rows id reg l,
  record_batches_to_iceberg d cs rows id = (d', true) -> select d reg = Some l -> rows <> [] ->
  select d' reg = Some l /\ select d' reg <> Some (l ++ map (map Some) rows).
Proof.
  intros V d d' cs rows id reg l H S N. assert (E : select d' reg = Some l).
  { unfold select in *. destruct (get d reg) as [m|] eqn:G; [|discriminate]. rewrite (proj2 (c148_others V d d' cs rows id true H) reg m G). exact S. }
  split; [exact E|]. rewrite E. intros X. inversion X as [X1]. apply (f_equal (@length _)) in X1. rewrite app_length, !map_length in X1.
  destruct rows; [contradiction|]. cbn in X1. lia.
Qed.
Print Assumptions c148_unseen_refuted.
(* Without a version hint, as in tables that belong to a catalog, an insert always succeeds, whatever the columns of the table
   and of the rows, and the version that it writes holds the inserted rows only, none of the table's. *)
Theorem c148_no_hint_refuted : forall (V : Type) (d : dir V) cs rows id,
  hint d = None -> get d (Vn 0) = None -> Forall (fun r => length r = length cs) rows -> NoDup (map c_name cs) ->
  exists d' m', record_batches_to_iceberg d cs rows id = (d', true) /\ hint d' = Some 0 /\ get d' (Vn 0) = Some m' /\
    holds m' (map (map Some) rows) /\
    forall reg m l, get d reg = Some m -> holds m l -> l <> [] -> ~ holds m' (l ++ map (map Some) rows).
Proof.
  intros V d cs rows id Hh G Hr Hn. eexists. exists (add_to (create_empty_metadata (assign_field_ids 1 cs)) (assign_field_ids 1 cs) rows id).
  split; [apply insert_none; assumption|]. split; [reflexivity|]. split; [apply get_new; exact G|].
  pose proof (valid_empty (V := V) cs Hn) as Hv.
  assert (L : Forall (fun r => length r = length (assign_field_ids 1 cs)) rows) by (rewrite assign_len; exact Hr).
  assert (H1 : holds (add_to (create_empty_metadata (assign_field_ids 1 cs)) (assign_field_ids 1 cs) rows id) (map (map Some) rows)).
  { apply (holds_add (create_empty_metadata (assign_field_ids 1 cs)) (assign_field_ids 1 cs) rows id [] Hv); auto.
    eapply holds_none; [reflexivity|left; reflexivity]. }
  split; [exact H1|]. intros reg m l _ _ Nl H2.
  assert (Hv2 : valid (add_to (create_empty_metadata (assign_field_ids 1 cs)) (assign_field_ids 1 cs) rows id)).
  { apply valid_add; auto. left. reflexivity. }
  pose proof (holds_fun _ _ _ Hv2 H1 H2) as E. apply (f_equal (@length _)) in E. rewrite app_length in E. destruct l; [contradiction|]. cbn in E. lia.
Qed.
Print Assumptions c148_no_hint_refuted.

(* C149. An insert keeps the metadata valid, and with them every snapshot, schema and partition spec; its sequence number is
   above all others. *)
Theorem c149_valid : forall (V : Type) (d d' : dir V) cs rows id ok, valid_dir d -> NoDup (map c_name cs) ->
  Forall (fun r => length r = length cs) rows -> record_batches_to_iceberg d cs rows id = (d', ok) -> valid_dir d'.
Proof.
  intros V d d' cs rows id ok Hd Hn Hr H. destruct ok; [|rewrite (proj1 (c148_others V d d' cs rows id false H) eq_refl); exact Hd].
  destruct (insert_shape d cs rows id d' H) as (v & m & fs & G & -> & Hc). destruct Hd as [D1 D2]. split; cbn [mfiles].
  - rewrite map_app. cbn. apply (NoDup_Add (a := Vn v) (l := map fst (mfiles d))).
    + rewrite <- (app_nil_r (map fst (mfiles d))) at 1. apply Add_app.
    + split; [exact D1|apply get_none; exact G].
  - apply Forall_app. split; [exact D2|]. constructor; [|constructor]. cbn [snd].
    destruct Hc as [(_ & -> & ->)|(h & _ & _ & G2 & -> & A & N)].
    + apply valid_add; [apply valid_empty; exact Hn|left; reflexivity|intros []|]. rewrite assign_len. exact Hr.
    + pose proof (get_valid d _ m (conj D1 D2) G2) as Hv. apply valid_add; auto using current_in. rewrite (aligned_len _ _ A). exact Hr.
Qed.
Print Assumptions c149_valid.
Theorem c149_kept : forall (V : Type) (d d' : dir V) cs rows id h m, valid_dir d -> hint d = Some h -> get d (Vn h) = Some m ->
  record_batches_to_iceberg d cs rows id = (d', true) ->
  exists m' s, get d' (Vn (h + 1)) = Some m' /\ schemas m' = schemas m /\ current_schema_id m' = current_schema_id m /\ specs m' = specs m /\
    snapshots m' = snapshots m ++ [s] /\ main m' = Some (s_id s) /\ Forall (fun x => s_seq x < s_seq s) (snapshots m).
Proof.
  intros V d d' cs rows id h m Hd Hh G H. destruct (insert_hint d cs rows id d' h Hh H) as (m0 & G0 & A & N & G2 & ->).
  rewrite G in G0. inversion G0; subst m0. pose proof (get_valid d _ m Hd G) as Hv. exists (add_to m (current_schema m) rows id). eexists.
  split; [apply get_new; exact G2|]. repeat (split; [reflexivity|]). eapply Forall_impl; [|exact (v_seq m Hv)]. cbn. intros; lia.
Qed.
Print Assumptions c149_kept.
(* If the current schema is the one with the id 0, a query of the new version yields its rows. *)
Theorem c149_read_partial : forall (V : Type) (d d' : dir V) cs rows id h m l,
  valid_dir d -> hint d = Some h -> get d (Vn h) = Some m -> holds m l -> Forall (fun r => length r = length cs) rows ->
  current_schema_id m = 0 ->
  record_batches_to_iceberg d cs rows id = (d', true) -> select d' (Vn (h + 1)) = Some (l ++ map (map Some) rows).
Proof.
  intros V d d' cs rows id h m l Hd Hh G Hl Hr H0 H.
  destruct (insert_hint d cs rows id d' h Hh H) as (m0 & G0 & A & N & G2 & E). rewrite G in G0. inversion G0; subst m0.
  destruct (c148_partial V d d' cs rows id h m l Hd Hh G Hl Hr H) as (_ & m' & G' & Hv' & Hh').
  pose proof (get_valid d _ m Hd G) as Hv. rewrite E in G'. rewrite get_new in G' by exact G2. inversion G'; subst m'. clear G'.
  unfold select. rewrite E, get_new by exact G2. set (m' := add_to m (current_schema m) rows id) in *.
  assert (C : current_schema m' = current_schema m) by reflexivity.
  destruct (snap_some m' Hv') as (s & S1 & S2 & S3); [discriminate|].
  assert (Es : s_schema s = 0).
  { cbn in S2, S3. apply in_app_iff in S2 as [S2|[<-|[]]]; [|reflexivity]. exfalso. apply N. inversion S3; subst. apply in_map. exact S2. }
  unfold read. rewrite S3, S1, Es.
  assert (As : assoc 0 (schemas m') = Some (current_schema m')).
  { apply assoc_in; [exact (v_schemas m' Hv')|]. pose proof (current_in m' Hv') as X. cbn [current_schema_id m' add_to] in X. rewrite H0 in X. exact X. }
  rewrite As.
  assert (Sel : forall fs, (forall f, In f fs -> In f (current_schema m')) ->
    map_err (fun c => find (fun f => Nat.eqb (fname f) (fname c)) (current_schema m')) fs = Some fs).
  { induction fs as [|f fs IH]; intros Hin; cbn; [reflexivity|]. rewrite IH by (intros; apply Hin; right; assumption).
    rewrite (find_key fname f); [reflexivity| |apply Hin; left; reflexivity].
    exact (proj1 (v_fields m' Hv' _ _ (current_in m' Hv'))). }
  rewrite (Sel (current_schema m')) by auto. f_equal. apply (holds_fun m' _ _ Hv'); [|exact Hh'].
  eapply holds_some; [exact S3|exact S2|reflexivity|exact (current_in m' Hv')|].
  pose proof (file_rows m' s Hv' S2) as F. clear - F. induction F as [|r rs H1 H2 IH]; cbn; constructor; [|exact IH].
  clear - H1. induction (current_schema m') as [|f fs IH]; cbn; constructor; [exact (cell_assoc r f H1)|exact IH].
Qed.
Print Assumptions c149_read_partial.
(* If the schema has been changed since (another program added or renamed a column), the new snapshot is recorded with the first
   schema, and every query of the new version fails. *)
Theorem c149_schema_refuted : forall (V : Type) (d d' : dir V) cs rows id h m c,
  valid_dir d -> hint d = Some h -> get d (Vn h) = Some m ->
  In c (current_schema m) -> (forall fs, In (0, fs) (schemas m) -> ~ In (fname c) (map fname fs)) ->
  record_batches_to_iceberg d cs rows id = (d', true) -> select d' (Vn (h + 1)) = None.
Proof.
  intros V d d' cs rows id h m c Hd Hh G Hc Hn H.
  destruct (insert_hint d cs rows id d' h Hh H) as (m0 & G0 & A & N & G2 & E). rewrite G in G0. inversion G0; subst m0. clear G0.
  unfold select. rewrite E, get_new by exact G2. set (m' := add_to m (current_schema m) rows id).
  unfold read. change (main m') with (Some id). destruct (current_snapshot m') as [s|] eqn:S; [|reflexivity].
  assert (Es : s_schema s = 0).
  { unfold current_snapshot in S. cbn [main m' add_to] in S. apply find_some in S as [S1 S2]. apply Nat.eqb_eq in S2.
    cbn in S1. apply in_app_iff in S1 as [S1|[<-|[]]]; [|reflexivity]. exfalso. apply N. rewrite <- S2. apply in_map. exact S1. }
  rewrite Es. change (schemas m') with (schemas m).
  destruct (assoc 0 (schemas m)) as [fs|] eqn:As; [|reflexivity]. apply assoc_some in As.
  match goal with |- context [map_err ?g ?l] => assert (M : map_err g l = None) end; [|rewrite M; reflexivity].
  change (current_schema m') with (current_schema m). clear - Hc Hn As.
  induction (current_schema m) as [|f l IH]; [contradiction|]. cbn. destruct Hc as [->|Hc].
  - destruct (find _ fs) as [x|] eqn:Fx; [|reflexivity]. exfalso. apply find_some in Fx as [F1 F2]. apply Nat.eqb_eq in F2.
    apply (Hn fs As). rewrite <- F2. apply in_map. exact F1.
  - rewrite (IH Hc). destruct (find _ fs); reflexivity.
Qed.
Print Assumptions c149_schema_refuted.
(* Partition values: right if the spec with the id 0 has no fields, *)
Theorem c149_partition_partial : forall (V : Type) (d d' : dir V) cs rows id h m, hint d = Some h -> get d (Vn h) = Some m ->
  partitions_fit m -> In (0, []) (specs m) -> record_batches_to_iceberg d cs rows id = (d', true) ->
  exists m', get d' (Vn (h + 1)) = Some m' /\ partitions_fit m'.
Proof.
  intros V d d' cs rows id h m Hh G Hp H0 H. destruct (insert_hint d cs rows id d' h Hh H) as (m0 & G0 & A & N & G2 & ->).
  rewrite G in G0. inversion G0; subst m0. exists (add_to m (current_schema m) rows id). split; [apply get_new; exact G2|].
  intros s f Hs Hf. cbn [add_to snapshots specs] in *. apply in_app_iff in Hs as [Hs|[<-|[]]]; [exact (Hp s f Hs Hf)|]. cbn in Hf.
  apply in_app_iff in Hf as [Hf|[<-|[]]]; [|exists []; split; [exact H0|reflexivity]].
  destruct (current_snapshot m) as [s|] eqn:E; [|contradiction]. unfold current_snapshot in E. destruct (main m); [|discriminate].
  apply find_some in E as [E _]. exact (Hp s f E Hf).
Qed.
Print Assumptions c149_partition_partial.
(* The version that an insert without a version hint writes has a spec for its files. *)
Theorem c149_partition_new : forall (V : Type) (d : dir V) cs rows id, hint d = None -> get d (Vn 0) = None ->
  exists d' m', record_batches_to_iceberg d cs rows id = (d', true) /\ get d' (Vn 0) = Some m' /\ partitions_fit m'.
Proof.
  intros V d cs rows id Hh G. eexists. exists (add_to (create_empty_metadata (assign_field_ids 1 cs)) (assign_field_ids 1 cs) rows id).
  split; [apply insert_none; assumption|]. split; [apply get_new; exact G|].
  intros s f [<-|[]] Hf. cbn in Hf. destruct Hf as [<-|[]]. exists []. split; [left; reflexivity|reflexivity].
Qed.
Print Assumptions c149_partition_new.
(* wrong in every partitioned table whose first spec is a real one. *)
Theorem c149_partition_refuted : forall (V : Type) (d d' : dir V) cs rows id h m sp, hint d = Some h -> get d (Vn h) = Some m ->
  NoDup (map fst (specs m)) -> In (0, sp) (specs m) -> sp <> [] -> record_batches_to_iceberg d cs rows id = (d', true) ->
  exists m', get d' (Vn (h + 1)) = Some m' /\ ~ partitions_fit m'.
Proof.
  intros V d d' cs rows id h m sp Hh G Hn H0 Hne H. destruct (insert_hint d cs rows id d' h Hh H) as (m0 & G0 & A & N & G2 & ->).
  rewrite G in G0. inversion G0; subst m0. exists (add_to m (current_schema m) rows id). split; [apply get_new; exact G2|].
  intros Hp. edestruct Hp as (sp' & S1 & S2).
  - cbn [add_to snapshots]. apply in_app_iff. right. left. reflexivity.
  - cbn [s_files]. apply in_app_iff. right. left. reflexivity.
  - cbn [f_spec f_part add_to specs] in *. pose proof (assoc_in _ _ _ Hn S1) as E1. pose proof (assoc_in _ _ _ Hn H0) as E2.
    rewrite E1 in E2. inversion E2; subst sp'. destruct sp; [contradiction|discriminate S2].
Qed.
Print Assumptions c149_partition_refuted.
(* The new snapshot does not name the one that it builds on. *)
Theorem c149_parent_refuted : forall (V : Type) (d d' : dir V) cs rows id h m i, hint d = Some h -> get d (Vn h) = Some m -> main m = Some i ->
  record_batches_to_iceberg d cs rows id = (d', true) ->
  exists m' s, get d' (Vn (h + 1)) = Some m' /\ In s (snapshots m') /\ main m' = Some (s_id s) /\ s_parent s <> Some i.
Proof.
  intros V d d' cs rows id h m i Hh G Hm H. destruct (insert_hint d cs rows id d' h Hh H) as (m0 & G0 & A & N & G2 & ->).
  rewrite G in G0. inversion G0; subst m0. exists (add_to m (current_schema m) rows id). eexists. split; [apply get_new; exact G2|].
  split; [cbn [add_to snapshots]; apply in_app_iff; right; left; reflexivity|]. split; [reflexivity|discriminate].
Qed.
Print Assumptions c149_parent_refuted.

(* A table with two columns and a row, at version 1; the same with a column renamed, and partitioned *)
Definition fs1 : list field := [{| fid := 1; fname := 10; required := true; ftype := 1 |}; {| fid := 2; fname := 11; required := false; ftype := 2 |}].
Definition fs2 : list field := [{| fid := 1; fname := 10; required := true; ftype := 1 |}; {| fid := 2; fname := 12; required := false; ftype := 2 |}].
Definition sn (sch : nat) : snapshot nat := {| s_id := 77; s_parent := None; s_schema := sch; s_seq := 1; s_files := [{| f_spec := 0; f_part := []; f_rows := [[(1, 5); (2, 6)]] |}] |}.
Definition md (cur : nat) (sp : list nat) : metadata nat := {| schemas := [(0, fs1); (1, fs2)]; current_schema_id := cur; specs := [(0, sp)];
  snapshots := [sn cur]; main := Some 77; last_sequence_number := 1 |}.
Definition dd (cur : nat) (sp : list nat) : dir nat := {| hint := Some 1; mfiles := [(Vn 1, md cur sp)] |}.
Definition cs1 : list column := [{| c_name := 10; c_required := true; c_type := 1 |}; {| c_name := 11; c_required := false; c_type := 2 |}].
Lemma md_valid cur sp : cur <= 1 -> valid (md cur sp).
Proof.
  intros Hc. constructor; cbn [md schemas current_schema_id snapshots main last_sequence_number].
  - repeat (constructor; [cbn; intros X; repeat destruct X as [X|X]; try discriminate X; exact X|]). constructor.
  - destruct cur as [|[|cur]]; [exists fs1; left; reflexivity|exists fs2; right; left; reflexivity|lia].
  - intros i fs [E|[E|[]]]; inversion E; subst; split;
      repeat (constructor; [cbn; intros X; repeat destruct X as [X|X]; try discriminate X; exact X|]); constructor.
  - constructor; [intros []|constructor].
  - intros i E. inversion E. left. reflexivity.
  - constructor; [cbn; lia|constructor].
  - intros s f r [<-|[]] [<-|[]] [<-|[]]. cbn. repeat (constructor; [cbn; intros X; repeat destruct X as [X|X]; try discriminate X; exact X|]). constructor.
Qed.
Example c148_ex : valid_dir (dd 0 []) /\ holds (md 0 []) [[Some 5; Some 6]] /\ select (dd 0 []) (Vn 1) = Some [[Some 5; Some 6]] /\
  exists d', record_batches_to_iceberg (dd 0 []) cs1 [[7; 8]] 99 = (d', true) /\ select d' (Vn 2) = Some [[Some 5; Some 6]; [Some 7; Some 8]] /\
    select d' (Vn 1) = Some [[Some 5; Some 6]].
Proof.
  split; [split; [constructor; [intros []|constructor]|constructor; [apply md_valid; lia|constructor]]|].
  split; [|split; [reflexivity|eexists; split; [reflexivity|split; reflexivity]]].
  eapply holds_some with (s := sn 0) (fs := fs1); [reflexivity|left; reflexivity|reflexivity|left; reflexivity|].
  cbn. constructor; [|constructor].
  constructor; [split; [intros x E; inversion E; left; reflexivity|discriminate]|].
  constructor; [split; [intros x E; inversion E; right; left; reflexivity|discriminate]|constructor].
Qed.
Example c149_ex : exists d', record_batches_to_iceberg (dd 1 [2]) cs1 [[7; 8]] 99 = (d', true) /\ select (dd 1 [2]) (Vn 1) = Some [[Some 5; Some 6]] /\ select d' (Vn 2) = None /\
  In {| fid := 2; fname := 12; required := false; ftype := 2 |} (current_schema (md 1 [2])) /\
  (forall fs, In (0, fs) (schemas (md 1 [2])) -> ~ In 12 (map fname fs)).
Proof.
  eexists. split; [reflexivity|]. split; [reflexivity|]. split; [reflexivity|]. split; [right; left; reflexivity|].
  intros fs [E|[E|[]]]; inversion E; subst. cbn. intuition discriminate.
Qed.
Example c148_no_hint_ex : exists d', record_batches_to_iceberg {| hint := None; mfiles := [(Other 1, md 0 [])] |} [] [[]; []] 99 = (d', true) /\
  select d' (Vn 0) = Some [[]; []] /\ select d' (Other 1) = Some [[Some 5; Some 6]].
Proof. eexists. split; [reflexivity|]. split; reflexivity. Qed.
Example c148_fits_ex : snd (record_batches_to_iceberg (dd 0 []) cs1 [[7; 8]] 99) = true /\
  snd (record_batches_to_iceberg (dd 0 []) (rev cs1) [[7; 8]] 99) = false /\ snd (record_batches_to_iceberg (dd 0 []) [{| c_name := 10; c_required := false; c_type := 1 |}; {| c_name := 11; c_required := false; c_type := 2 |}] [[7; 8]] 99) = false /\
  In (current_schema_id (md 0 []), fs1) (schemas (md 0 [])).
Proof. split; [reflexivity|]. split; [reflexivity|]. split; [reflexivity|left; reflexivity]. Qed.
