(* C153: what a new version does to the catalog of an older one.
   Specification: MigSpec.v. Model: MigModel.v. Proofs: MigProofs.v. *)
From Coq Require Import List Arith Bool ZArith Lia.
From Verif Require Import MigModel MigSpec MigProofs.
Import ListNotations.

(* C153: however often a server is started, and wherever its starts are interrupted, the catalog lists the same tables, versions
   and columns under the same keys and names, and the columns have the recorded names, types and nullability. *)
Theorem c153_kept : forall known ks e c,
  of_age e c ->
  listing (starts known ks c) = listing c /\ map says (columns (starts known ks c)) = map says (columns c).
Proof. intros known ks e c O. destruct (starts_kept known ks e c O) as (e' & _ & _ & A & B). auto. Qed.
Print Assumptions c153_kept.

(* C153: interrupted starts can be repeated: after the first one that is not interrupted, the upgrade is complete, as it would have
   been without the interruptions: nothing of it is done twice. *)
Theorem c153_complete : forall known ks e c, of_age e c -> applied (complete_start known (starts known ks c)) = [1; 2; 3; 4].
Proof.
  intros known ks e c O. destruct (starts_kept known ks e c O) as (e' & _ & O' & _). destruct (complete_age known e' _ O') as (_ & A & _). exact A.
Qed.
Print Assumptions c153_complete.

(* C153: once a start has run to its end on an upgraded catalog, later ones leave the catalog alone. *)
Theorem c153_settled : forall known e c ks,
  of_age e c -> let c2 := complete_start known (complete_start known c) in starts known ks c2 = c2.
Proof.
  intros known e c ks O. cbv zeta. pose proof (complete_age known e c O) as O1. pose proof (complete_age known 4 _ O1) as O2.
  set (c1 := complete_start known c) in *.
  assert (N : forall x, In x (columns (complete_start known c1)) -> convert known (c_type x) = None).
  { intros x X. rewrite (complete_shape known 4 c1 O1) in X. rewrite ups_columns in X by lia. cbn in X. apply in_map_iff in X as (y & <- & _). apply conv_conv. }
  induction ks as [|k ks IH]; [reflexivity|]. change (starts known (k :: ks) (complete_start known c1)) with (starts known ks (start known k (complete_start known c1))).
  rewrite (idle known _ k O2 N). exact IH.
Qed.
Print Assumptions c153_settled.

(* C153: tables that are already stored as Delta tables keep their locations, their version numbers, and the list of dropped ones. *)
Theorem c153_delta : forall known ks e c,
  of_age e c -> 3 <= e ->
  let c' := starts known ks c in
  map t_uuid (tables c') = map t_uuid (tables c) /\ map v_number (versions c') = map v_number (versions c) /\ dropped c' = dropped c.
Proof.
  intros known ks. cbv zeta. induction ks as [|k ks IH]; intros e c O H; [auto|].
  change (starts known (k :: ks) c) with (starts known ks (start known k c)).
  destruct (start_kept known e c k O) as (e' & L & O' & _). destruct (IH e' _ O' ltac:(lia)) as (A & B & D).
  destruct (start_shape known e c k O) as (l & m & E & _ & L4 & _). rewrite A, B, D, E.
  assert (M : m = 0 \/ e = 3 /\ m = 1) by lia. destruct M as [->|[-> ->]]; cbn; rewrite ?map_map; auto.
Qed.
Print Assumptions c153_delta.

(* C153: a catalog with a migration of a later version is refused: the start ends with an error, no migration is applied, and the
   texts of types say what they said. *)
Theorem c153_newer : forall known k c n,
  In n (applied c) -> 4 < n -> NoDup (map c_id (columns c)) ->
  refused c = true /\
  let c' := start known k c in
  applied c' = applied c /\ tables c' = tables c /\ versions c' = versions c /\ dropped c' = dropped c /\ partitions c' = partitions c /\
  listing c' = listing c /\ map says (columns c') = map says (columns c).
Proof.
  intros known k c n I H N. assert (R : refused c = true).
  { unfold refused. apply negb_true_iff. destruct (forallb _ _) eqn:E; [|reflexivity]. rewrite forallb_forall in E. specialize (E n I).
    destruct n as [|[|[|[|[|n]]]]]; try lia. discriminate E. }
  split; [exact R|]. cbv zeta. unfold start, setup. rewrite R, app_nil_r. fold (row_updates known (columns c)).
  assert (G : Forall (good known c) (firstn k (row_updates known (columns c)))).
  { pose proof (good_rows known c) as X. rewrite <- (firstn_skipn k (row_updates known (columns c))) in X. apply Forall_app in X. apply X. }
  rewrite (updates_run known c _ N G). cbn [with_columns applied tables versions dropped partitions columns]. repeat (split; [reflexivity|]). split.
  - unfold listing. cbn. rewrite map_map. f_equal. apply map_ext. intros x. destruct (existsb _ _); [|reflexivity]. unfold conv. destruct (convert known (c_type x)); reflexivity.
  - rewrite map_map. apply map_ext. intros x. destruct (existsb _ _); [apply conv_says|reflexivity].
Qed.
Print Assumptions c153_newer.

(* C153, the types, the part that holds: after a complete start on a catalog that had the second migration, every column of a type
   that can be read has its type in the form that this version writes. Missing: older catalogs (c153_first_start_refuted) and the
   other types (c153_unknown_refuted). *)
Theorem c153_canonical_partial : forall known e c x t,
  of_age e c -> 2 <= e -> In x (columns (complete_start known c)) -> type_in x = Some t -> known t = true -> canonical x.
Proof.
  intros known e c x t O H X T K. pose proof (complete_age known e c O) as O4. rewrite (complete_shape known e c O), ups_columns in X by exact H.
  cbn in X. apply in_map_iff in X as (y & <- & Y). destruct O as (_ & _ & _ & _ & D & _). specialize (D H y).
  unfold canonical, conv, type_in in *. destruct (c_type y) as [u|n u b|n u b|] eqn:E; cbn [convert] in *.
  - exfalso. exact (D u Y eq_refl).
  - destruct (known u) eqn:Ku; [exists n, u, b; reflexivity|]. exfalso. rewrite E in T. injection T as ->. congruence.
  - exists n, u, b. exact E.
  - rewrite E in T. discriminate T.
Qed.
Print Assumptions c153_canonical_partial.

(* C153, refuted: the texts are rewritten before the migrations. On a catalog from before the second migration, the first start leaves
   every column in the old form; a second start is needed. *)
Theorem c153_first_start_refuted : forall known c x,
  of_age 1 c -> In x (columns (complete_start known c)) -> ~ canonical x.
Proof.
  intros known c x O X. rewrite (complete_shape known 1 c O) in X. cbn in X. apply in_map_iff in X as (y & <- & Y). apply in_map_iff in Y as (z & <- & Z).
  destruct O as (_ & _ & _ & B & _). destruct (B (le_n 1) z Z) as [t T]. rewrite (conv_bare known z t T). intros (n & u & b & E). cbn in E. rewrite T in E. discriminate E.
Qed.
Print Assumptions c153_first_start_refuted.
Theorem c153_second_start : forall known e c x t,
  of_age e c -> In x (columns (complete_start known (complete_start known c))) -> type_in x = Some t -> known t = true -> canonical x.
Proof.
  intros known e c x t O X. apply (c153_canonical_partial known 4 (complete_start known c)); [exact (complete_age known e c O)|lia|exact X].
Qed.
Print Assumptions c153_second_start.

(* C153, refuted: a type that cannot be read from a field without children (a list has lost the type of its items) stays in the old
   form for ever. *)
Theorem c153_unknown_refuted : forall known ks e c x t,
  of_age e c -> (forall y, In y (columns c) -> ~ canonical y) -> In x (columns (starts known ks c)) -> type_in x = Some t -> known t = false -> ~ canonical x.
Proof.
  intros known ks e c x t O N X T K.
  cut (forall ks e c, of_age e c -> (forall y n u b, In y (columns c) -> c_type y = Canonical n u b -> known u = true) ->
       forall y n u b, In y (columns (starts known ks c)) -> c_type y = Canonical n u b -> known u = true).
  { intros H (n & u & b & E). unfold type_in in T. rewrite E in T. injection T as ->.
    enough (known t = true) by congruence. refine (H ks e c O _ x n t b X E). intros y n' u' b' Y Ey. exfalso. apply (N y Y). exists n', u', b'. exact Ey. }
  clear. induction ks as [|k ks IH]; intros e c O N; [exact N|].
  change (starts known (k :: ks) c) with (starts known ks (start known k c)).
  destruct (start_kept known e c k O) as (e' & _ & O' & _). apply (IH e' _ O'). intros y n u b Y E.
  destruct (start_shape known e c k O) as (l & m & S & _ & L & _). rewrite S in Y.
  set (g := fun x => existsb (updates (c_id x)) l) in Y. change (fun x => if existsb (updates (c_id x)) l then conv known x else x) with (fun x => if g x then conv known x else x) in Y.
  assert (R : forall z n u b, In z (map (fun x => if g x then conv known x else x) (columns c)) -> c_type z = Canonical n u b -> known u = true).
  { intros z n0 u0 b0 Z Ez. apply in_map_iff in Z as (w & <- & W). destruct (g w); [|exact (N w n0 u0 b0 W Ez)]. unfold conv in Ez.
    destruct (c_type w) as [t1|n1 t1 b1|n1 t1 b1|] eqn:Ew; cbn [convert] in Ez; try (exact (N w n0 u0 b0 W Ez)).
    destruct (known t1) eqn:K1; [|rewrite Ew in Ez; discriminate Ez]. cbn in Ez. injection Ez as _ <- _. exact K1. }
  clear S O O' IH N. revert R Y. generalize (map (fun x => if g x then conv known x else x) (columns c)) as cs. clear g.
  assert (Q : forall m e c, (forall z n u b, In z (columns c) -> c_type z = Canonical n u b -> known u = true) ->
              forall z n u b, In z (columns (ups m e c)) -> c_type z = Canonical n u b -> known u = true).
  { clear. induction m as [|m IH]; intros e c R; [exact R|]. change (ups (S m) e c) with (ups m (S e) (act c (Migrate (S e)))). apply IH.
    intros z n u b Z Ez. destruct e as [|[|[|[|e]]]]; try exact (R z n u b Z Ez). cbn in Z. apply in_map_iff in Z as (w & <- & _). cbn in Ez. destruct (c_type w); discriminate Ez. }
  intros cs R Y. apply (Q m e (with_columns c cs) R y n u b Y E).
Qed.
Print Assumptions c153_unknown_refuted.

(* C153, refuted: the rows of tables from before the third migration are lost: after the upgrade all these tables have the same
   location, where there is no table, and the list of their files is gone. *)
Theorem c153_legacy_refuted : forall known e c,
  of_age e c -> e <= 2 ->
  let c' := complete_start known c in
  partitions c' = None /\ forall x, In x (tables c') -> t_uuid x = Some 0.
Proof.
  intros known e c O H. cbv zeta. rewrite (complete_shape known e c O). assert (E : e = 0 \/ e = 1 \/ e = 2) by lia.
  destruct E as [E|[E|E]]; subst e; cbn; (split; [reflexivity|]); intros x X; apply in_map_iff in X as (y & <- & Y); apply in_map_iff in Y as (z & <- & _); reflexivity.
Qed.
Print Assumptions c153_legacy_refuted.

(* a catalog of the first version, with two tables, interrupted twice *)
Definition old_catalog : catalog :=
  {| applied := [1];
     columns := [{| c_id := 1; c_version := 1; c_name := 5; c_type := Bare 7 |}; {| c_id := 2; c_version := 2; c_name := 6; c_type := Bare 8 |}];
     tables := [{| t_id := 1; t_schema := 1; t_name := 10; t_legacy := None; t_uuid := None |}; {| t_id := 2; t_schema := 1; t_name := 11; t_legacy := None; t_uuid := None |}];
     versions := [{| v_id := 1; v_table := 1; v_number := None |}; {| v_id := 2; v_table := 2; v_number := None |}];
     partitions := Some [100; 101]; dropped := None |}.
Example old_of_age : of_age 1 old_catalog.
Proof.
  split; [lia|]. split; [reflexivity|]. split; [repeat (constructor; [cbn; intros X; repeat destruct X as [X|X]; try discriminate X; exact X|]); constructor|].
  split; [|split; [lia|discriminate]]. intros _ x [<-|[<-|[]]]; eexists; reflexivity.
Qed.
Example old_upgraded :
  let k := Nat.eqb 7 in
  starts k [1; 2; 9; 1] old_catalog =
  {| applied := [1; 2; 3; 4];
     columns := [{| c_id := 1; c_version := 1; c_name := 5; c_type := Canonical 5 7 true |}; {| c_id := 2; c_version := 2; c_name := 6; c_type := Old 6 8 true |}];
     tables := [{| t_id := 1; t_schema := 1; t_name := 10; t_legacy := None; t_uuid := Some 0 |}; {| t_id := 2; t_schema := 1; t_name := 11; t_legacy := None; t_uuid := Some 0 |}];
     versions := [{| v_id := 1; v_table := 1; v_number := Some (-1)%Z |}; {| v_id := 2; v_table := 2; v_number := Some (-1)%Z |}];
     partitions := None; dropped := Some [] |}.
Proof. reflexivity. Qed.
Definition recent_catalog : catalog :=
  {| applied := [1; 2; 3]; columns := [{| c_id := 1; c_version := 1; c_name := 5; c_type := Old 5 7 false |}];
     tables := [{| t_id := 1; t_schema := 1; t_name := 10; t_legacy := Some false; t_uuid := Some 33 |}];
     versions := [{| v_id := 1; v_table := 1; v_number := Some 4%Z |}]; partitions := Some []; dropped := Some [44] |}.
Example recent_of_age : of_age 3 recent_catalog.
Proof.
  split; [lia|]. split; [reflexivity|]. split; [repeat (constructor; [cbn; intros X; repeat destruct X as [X|X]; try discriminate X; exact X|]); constructor|].
  split; [lia|]. split; [|discriminate]. intros _ x t [<-|[]]. discriminate.
Qed.
Example recent_upgraded : map c_type (columns (complete_start (Nat.eqb 7) recent_catalog)) = [Canonical 5 7 false].
Proof. reflexivity. Qed.
