(* C145: CREATE TABLE AS. Meaning in CtasSpec.v, model in CtasModel.v. *)
From Coq Require Import String List ZArith Bool Lia.
From Verif Require Import CtasModel CtasSpec.
Import ListNotations.
Open Scope Z_scope.
Open Scope list_scope.

Lemma coerce_type_same t : (forall tz, t <> Timestamp Ns tz) -> coerce_type t = t.
Proof. destruct t as [[] tz|k cs|k]; intros H; try reflexivity. exfalso. exact (H tz eq_refl). Qed.
Lemma coerce_value_same t v : (forall tz, t <> Timestamp Ns tz) -> coerce_value t v = v.
Proof. destruct t as [[] tz|k cs|k]; intros H; try reflexivity. exfalso. exact (H tz eq_refl). Qed.
Lemma coerce_row_length fs r : length r = length fs -> length (coerce_row fs r) = length r.
Proof. revert r. induction fs as [|f fs IH]; intros [|v r] L; cbn in *; try lia. rewrite IH; lia. Qed.
Lemma coerce_row_nth fs r j n t v : nth_error fs j = Some (n, t) -> nth_error r j = Some v -> nth_error (coerce_row fs r) j = Some (coerce_value t v).
Proof.
  revert r j. induction fs as [|f fs IH]; intros r j F V; [destruct j; discriminate F|]. destruct r as [|x r]; [destruct j; discriminate V|]. destruct j as [|j]; cbn in *; [injection F as ->; injection V as ->; reflexivity|exact (IH r j F V)].
Qed.
Lemma not_incompatible fs : existsb incompatible fs = false -> forall n t tz, In (n, t) fs -> t <> Timestamp Ns tz.
Proof. intros E n t tz I ->. assert (C : existsb incompatible fs = true) by (apply existsb_exists; exists (n, Timestamp Ns tz); auto). congruence. Qed.
(* the plan as it is run, without the shortcut for plans that need no cast *)
Lemma coerced_fields q : q_fields (coerce_plan q) = map (fun f => (fst f, coerce_type (snd f))) (q_fields q).
Proof.
  unfold coerce_plan. destruct (existsb incompatible (q_fields q)) eqn:E; [reflexivity|]. pose proof (not_incompatible _ E) as H. induction (q_fields q) as [|[n t] fs IH]; [reflexivity|]. cbn [map fst snd].
  rewrite coerce_type_same by (intros tz; apply (H n t tz); left; reflexivity). cbn in E. apply orb_false_iff in E as [_ E]. rewrite <- IH; [reflexivity|exact E|intros m u tz I; apply (H m u tz); right; exact I].
Qed.
Lemma coerce_row_id fs r : existsb incompatible fs = false -> length r = length fs -> coerce_row fs r = r.
Proof.
  revert r. induction fs as [|[n t] fs IH]; intros [|v r] E L; cbn in L; try lia; [reflexivity|]. pose proof (not_incompatible _ E n t) as H. cbn in E. apply orb_false_iff in E as [_ E]. cbn [coerce_row snd].
  rewrite coerce_value_same by (intros tz; apply H; left; reflexivity). rewrite IH; [reflexivity|exact E|lia].
Qed.
Lemma coerced_run q rows : q_run q = Some rows -> fits (q_fields q) rows -> q_run (coerce_plan q) = Some (map (coerce_row (q_fields q)) rows).
Proof.
  intros R F. unfold coerce_plan. destruct (existsb incompatible (q_fields q)) eqn:E; cbn [q_run]; rewrite R; [reflexivity|]. f_equal. clear R. induction F as [|r rows L F IH]; [reflexivity|]. cbn [map]. rewrite (coerce_row_id _ r E L), <- IH. reflexivity.
Qed.
Lemma coerced_fails q : q_run q = None -> q_run (coerce_plan q) = None.
Proof. intros R. unfold coerce_plan. destruct (existsb incompatible (q_fields q)); cbn [q_run]; rewrite R; reflexivity. Qed.
Lemma put_same n t w : put n t w n = Some t.
Proof. unfold put. rewrite String.eqb_refl. reflexivity. Qed.
Lemma put_other n t w m : m <> n -> put n t w m = w m.
Proof. intros N. unfold put. destruct (String.eqb_spec m n); [contradiction|reflexivity]. Qed.

Section C145.
Variables (zone : option string -> bool) (plain : nat -> bool).
Notation ctas := (create_table_as zone plain).
Notation dt := (delta_type zone plain).

Lemma create_ok n fs w w1 : create_delta_table zone plain n fs w = Some w1 -> w n = None /\ (forall m t, In (m, t) fs -> dt t = true) /\ w1 = put n {| t_fields := fs; t_rows := []; t_versions := [0%nat] |} w.
Proof.
  unfold create_delta_table. destruct (forallb _ fs) eqn:E; [|discriminate]. cbn [negb]. destruct (w n) eqn:W; [discriminate|]. intros H; injection H as <-. rewrite forallb_forall in E. repeat split. intros m t I. exact (E (m, t) I).
Qed.
Lemma create_some n fs w : w n = None -> (forall m t, In (m, t) fs -> dt t = true) -> create_delta_table zone plain n fs w = Some (put n {| t_fields := fs; t_rows := []; t_versions := [0%nat] |} w).
Proof. intros W H. unfold create_delta_table. rewrite (proj2 (forallb_forall _ fs)); [cbn [negb]; rewrite W; reflexivity|]. intros [m t] I. exact (H m t I). Qed.

(* Success means a new table with the columns and the rows of the query, in their order, and nothing else changed (with IF NOT EXISTS: or
   that there was such a table). Each value means what it meant, but nanoseconds are cut off: by less than a microsecond, towards 1970 *)
Theorem c145_partial : forall orr ine n q rows w w', q_run q = Some rows -> fits (q_fields q) rows -> ctas orr ine n (Some q) w = (w', true) ->
  (ine = true /\ w n <> None /\ w' = w) \/
  (w n = None /\ (forall m, m <> n -> w' m = w m) /\ exists t, w' n = Some t /\ t_versions t = [0; 1]%nat /\ map fst (t_fields t) = map fst (q_fields q) /\ length (t_rows t) = length rows /\ fits (t_fields t) (t_rows t) /\
    forall i j c ty v, cell (q_fields q) rows i j c ty v -> exists ty' v', cell (t_fields t) (t_rows t) i j c ty' v' /\ dt ty' = true /\
      ((ty' = ty /\ v' = v) \/ exists tz, ty = Timestamp Ns tz /\ ty' = Timestamp Us tz /\
         ((v' = v /\ forall z, v <> Moment z) \/ exists z z', v = Moment z /\ v' = Moment z' /\ Z.abs (z - 1000 * z') < 1000 /\ Z.abs (1000 * z') <= Z.abs z /\ 0 <= z * z'))).
Proof.
  intros orr ine n q rows w w' R F E. unfold create_table_as in E. destruct (ine && match w n with Some _ => true | None => false end) eqn:G.
  { injection E as <-. apply andb_true_iff in G as [G1 G2]. left. split; [exact G1|]. split; [destruct (w n); discriminate|reflexivity]. }
  right. cbn zeta in E. destruct (create_delta_table zone plain n (q_fields (coerce_plan q)) w) as [w1|] eqn:C; [|discriminate E]. apply create_ok in C as (W & T & ->). unfold plan_to_delta_table in E. rewrite put_same, (coerced_run q rows R F) in E. cbn [t_fields t_rows t_versions app length] in E. injection E as <-.
  split; [exact W|]. split; [intros m N; rewrite !put_other by exact N; reflexivity|]. rewrite coerced_fields in *. eexists. split; [apply put_same|]. cbn [t_versions t_fields t_rows]. split; [reflexivity|]. split; [rewrite map_map; reflexivity|]. split; [apply map_length|]. split.
  { unfold fits in *. rewrite Forall_forall in *. intros r I. apply in_map_iff in I as (r0 & <- & I). rewrite map_length, (coerce_row_length _ _ (F r0 I)). exact (F r0 I). }
  intros i j c ty v (H1 & r & H2 & H3). exists (coerce_type ty), (coerce_value ty v). split; [|split].
  - split; [rewrite nth_error_map, H1; reflexivity|]. exists (coerce_row (q_fields q) r). split; [rewrite nth_error_map, H2; reflexivity|exact (coerce_row_nth _ _ _ _ _ _ H1 H3)].
  - apply (T c). apply in_map_iff. exists (c, ty). split; [reflexivity|]. exact (nth_error_In _ _ H1).
  - destruct ty as [[] tz|k cs|k]; try (left; split; reflexivity). right. exists tz. split; [reflexivity|]. split; [reflexivity|]. destruct v as [|z|cs|x]; try (left; split; [reflexivity|discriminate]). right. cbn [coerce_value]. exists z, (Z.quot z 1000). split; [reflexivity|]. split; [reflexivity|].
    pose proof (Z.quot_rem z 1000 ltac:(lia)) as Q. pose proof (Z.rem_bound_abs z 1000 ltac:(lia)) as B. split; [lia|].
    destruct (Z.le_gt_cases 0 z) as [P|P].
    + pose proof (Z.rem_nonneg z 1000 ltac:(lia) P). pose proof (Z.quot_pos z 1000 P ltac:(lia)). split; nia.
    + pose proof (Z.rem_nonpos z 1000 ltac:(lia) ltac:(lia)). assert (Z.quot z 1000 <= 0) by (rewrite <- (Z.opp_involutive z), Z.quot_opp_l by lia; pose proof (Z.quot_pos (- z) 1000 ltac:(lia) ltac:(lia)); lia). split; nia.
Qed.
(* Without fractions of microseconds it is the result of the query *)
Theorem c145_exact_partial : forall orr n q rows w w', q_run q = Some rows -> fits (q_fields q) rows -> ctas orr false n (Some q) w = (w', true) ->
  (forall i j c tz z, cell (q_fields q) rows i j c (Timestamp Ns tz) (Moment z) -> z mod 1000 = 0) ->
  exists t, w' n = Some t /\ length (t_rows t) = length rows /\ forall i j c ty v, cell (q_fields q) rows i j c ty v -> exists ty' v', cell (t_fields t) (t_rows t) i j c ty' v' /\ means ty' v' = means ty v.
Proof.
  intros orr n q rows w w' R F E Z0. destruct (c145_partial orr false n q rows w w' R F E) as [(C & _)|(_ & _ & t & T & _ & _ & L & _ & H)]; [discriminate C|]. exists t. split; [exact T|]. split; [exact L|].
  intros i j c ty v K. destruct (H i j c ty v K) as (ty' & v' & K' & _ & [[-> ->]|(tz & -> & -> & V)]); [eexists _, _; split; [exact K'|reflexivity]|]. exists (Timestamp Us tz), v'. split; [exact K'|]. destruct V as [[-> N]|(z & z' & -> & -> & A & B & S)].
  - destruct v as [|z|cs|x]; try reflexivity. exfalso. exact (N z eq_refl).
  - cbn [means scale]. f_equal. pose proof (Z0 i j c tz z K) as M. pose proof (Z.div_mod z 1000 ltac:(lia)) as D. rewrite M in D. lia.
Qed.
(* Nothing happens if the query cannot be planned, has a column that a Delta table cannot have, or the name is taken *)
Theorem c145_refused : forall orr n q w, (q = None \/ (exists x c t, q = Some x /\ In (c, t) (q_fields x) /\ dt (coerce_type t) = false) \/ w n <> None) -> ctas orr false n q w = (w, false).
Proof.
  intros orr n q w H. unfold create_table_as. cbn [andb]. destruct q as [q|]; [|reflexivity]. cbn zeta. destruct (create_delta_table zone plain n (q_fields (coerce_plan q)) w) as [w1|] eqn:C; [|reflexivity]. exfalso. apply create_ok in C as (W & T & _).
  destruct H as [H|[(x & c & t & H & I & B)|H]]; [discriminate H| |exact (H W)]. injection H as <-. rewrite coerced_fields in T. rewrite (T c (coerce_type t)) in B; [discriminate B|]. apply in_map_iff. exists (c, t). auto.
Qed.
(* A query that fails while it runs leaves an empty table behind, and the statement cannot be repeated; with IF NOT EXISTS the repetition
   reports success, whatever the query, and the table stays empty *)
Theorem c145_failed_refuted : forall orr ine n q w, w n = None -> q_run q = None -> (forall c t, In (c, t) (q_fields q) -> dt (coerce_type t) = true) ->
  exists w' t, ctas orr ine n (Some q) w = (w', false) /\ w' n = Some t /\ t_rows t = [] /\ t_versions t = [0%nat] /\ (forall m, m <> n -> w' m = w m) /\
    forall orr' q', ctas orr' false n q' w' = (w', false) /\ ctas orr' true n q' w' = (w', true).
Proof.
  intros orr ine n q w W R T. set (t := {| t_fields := map (fun f => (fst f, coerce_type (snd f))) (q_fields q); t_rows := []; t_versions := [0%nat] |}). exists (put n t w), t. split; [|split; [apply put_same|]].
  - unfold create_table_as. rewrite W, andb_false_r. cbn zeta. rewrite coerced_fields, create_some; [|exact W|].
    + fold t. unfold plan_to_delta_table. rewrite put_same, (coerced_fails q R). reflexivity.
    + intros m ty I. apply in_map_iff in I as ([c u] & E & I). injection E as <- <-. exact (T c u I).
  - split; [reflexivity|]. split; [reflexivity|]. split; [intros m N; apply put_other; exact N|]. intros orr' q'. split; [apply c145_refused; right; right; rewrite put_same; discriminate|]. unfold create_table_as. rewrite put_same. reflexivity.
Qed.
(* Different moments become the same: all that differ in their nanoseconds only; after 1970 they are moved backward, before it forward *)
Lemma ctas_two orr n c tz z z' w : w n = None -> zone tz = true -> exists w' t, ctas orr false n (Some {| q_fields := [(c, Timestamp Ns tz)]; q_run := Some [[Moment z]; [Moment z']] |}) w = (w', true) /\ w' n = Some t /\ t_rows t = [[Moment (Z.quot z 1000)]; [Moment (Z.quot z' 1000)]].
Proof.
  intros W Z0. eexists _, _. split; [|split].
  - unfold create_table_as. cbn [andb]. cbn zeta. unfold coerce_plan. cbn [existsb incompatible q_fields snd orb]. cbv iota. cbn [q_fields map fst snd coerce_type]. unfold create_delta_table. cbn [forallb snd delta_type]. rewrite Z0. cbn [andb negb]. rewrite W. unfold plan_to_delta_table. cbn [q_run option_map]. rewrite put_same. reflexivity.
  - apply put_same.
  - reflexivity.
Qed.
Theorem c145_precision_refuted : forall orr n c tz sign k r r' w, w n = None -> zone tz = true -> sign = 1 \/ sign = -1 -> 0 <= k -> 0 <= r < 1000 -> 0 <= r' < 1000 ->
  exists w' t, ctas orr false n (Some {| q_fields := [(c, Timestamp Ns tz)]; q_run := Some [[Moment (sign * (1000 * k + r))]; [Moment (sign * (1000 * k + r'))]] |}) w = (w', true) /\
    w' n = Some t /\ t_rows t = [[Moment (sign * k)]; [Moment (sign * k)]].
Proof.
  intros orr n c tz sign k r r' w W Z0 S K R R'. destruct (ctas_two orr n c tz (sign * (1000 * k + r)) (sign * (1000 * k + r')) w W Z0) as (w' & t & E & T & V). exists w', t. split; [exact E|]. split; [exact T|]. rewrite V.
  assert (Q : forall x, 0 <= x < 1000 -> Z.quot (sign * (1000 * k + x)) 1000 = sign * k).
  { intros x X. pose proof (Z.quot_unique (1000 * k + x) 1000 k x ltac:(lia) X eq_refl) as U. destruct S as [->| ->]; [rewrite !Z.mul_1_l; symmetry; exact U|]. replace (-1 * (1000 * k + x)) with (- (1000 * k + x)) by lia. rewrite Z.quot_opp_l by lia. rewrite <- U. lia. }
  rewrite (Q r R), (Q r' R'). reflexivity.
Qed.
(* Only nanoseconds at the top are cast: a column of seconds or milliseconds, or with nanoseconds inside, is refused *)
Lemma ns_refused t : has_ns t = true -> dt t = false.
Proof.
  revert t. fix IH 1. intros [u tz|k cs|k] H; [destruct u; cbn in H; try discriminate H; reflexivity| |discriminate H]. cbn [delta_type]. apply andb_false_iff. right. cbn [has_ns] in H. induction cs as [|c cs IHc]; [discriminate H|]. cbn [existsb] in H. cbn [forallb].
  destruct (has_ns c) eqn:E; [rewrite (IH c E); reflexivity|]. cbn [orb] in H. rewrite (IHc H). apply andb_false_r.
Qed.
Theorem c145_types_refuted : forall orr n q w c t, In (c, t) (q_fields q) -> (exists tz, t = Timestamp Sec tz \/ t = Timestamp Ms tz) \/ (exists k cs, t = Nested k cs /\ has_ns t = true) -> ctas orr false n (Some q) w = (w, false).
Proof.
  intros orr n q w c t I H. apply c145_refused. right. left. exists q, c, t. split; [reflexivity|]. split; [exact I|]. destruct H as [(tz & [->| ->])|(k & cs & -> & H)]; [reflexivity|reflexivity|]. exact (ns_refused _ H).
Qed.
(* The same data that CREATE TABLE AS takes are refused as a file *)
Theorem c145_upload_refuted : forall orr n q rows w c tz, w n = None -> q_run q = Some rows -> fits (q_fields q) rows -> In (c, Timestamp Ns tz) (q_fields q) -> (forall m t, In (m, t) (q_fields q) -> dt (coerce_type t) = true) ->
  upload_new zone plain n q w = (w, false) /\ snd (ctas orr false n (Some q) w) = true.
Proof.
  intros orr n q rows w c tz W R F I T. split.
  - unfold upload_new. destruct (create_delta_table zone plain n (q_fields q) w) as [w1|] eqn:C; [|reflexivity]. exfalso. apply create_ok in C as (_ & A & _). discriminate (A c _ I).
  - unfold create_table_as. cbn [andb]. cbn zeta. rewrite coerced_fields, create_some; [|exact W|].
    + unfold plan_to_delta_table. rewrite put_same, (coerced_run q rows R F). reflexivity.
    + intros m ty J. apply in_map_iff in J as ([c' u] & E & J). injection E as <- <-. exact (T c' u J).
Qed.
(* OR REPLACE replaces nothing *)
Theorem c145_replace_refuted : forall n q w, w n <> None -> ctas true false n q w = (w, false).
Proof. intros n q w W. apply c145_refused. auto. Qed.
End C145.
Print Assumptions c145_partial.
Print Assumptions c145_exact_partial.
Print Assumptions c145_refused.
Print Assumptions c145_failed_refuted.
Print Assumptions c145_precision_refuted.
Print Assumptions c145_types_refuted.
Print Assumptions c145_upload_refuted.
Print Assumptions c145_replace_refuted.

(* A query with nanoseconds, one that fails, one with seconds *)
Definition ex_q : query := {| q_fields := [("at", Timestamp Ns None); ("x", Plain 1)]%string; q_run := Some [[Moment (-1999); Other 1]; [Moment 5000; Null]; [Null; Other 2]] |}.
Definition ex_bad : query := {| q_fields := [("x", Plain 1)]%string; q_run := None |}.
Definition ex_ctas := create_table_as (fun _ => true) (fun _ => true).
Definition ex_none : tables := fun _ => None.
Example c145_ex : option_map t_rows (fst (ex_ctas false false "t" (Some ex_q) ex_none) "t"%string) = Some [[Moment (-1); Other 1]; [Moment 5; Null]; [Null; Other 2]] /\
  option_map t_fields (fst (ex_ctas false false "t" (Some ex_q) ex_none) "t"%string) = Some [("at", Timestamp Us None); ("x", Plain 1)]%string /\
  option_map t_rows (fst (ex_ctas false true "t" (Some ex_bad) ex_none) "t"%string) = Some [] /\ snd (ex_ctas false true "t" (Some ex_q) (fst (ex_ctas false true "t" (Some ex_bad) ex_none))) = true.
Proof. repeat split. Qed.
Example c145_ex_fits : fits (q_fields ex_q) [[Moment (-1999); Other 1]; [Moment 5000; Null]; [Null; Other 2]].
Proof. repeat constructor. Qed.
