(* The columns of CREATE TABLE. What the properties say is in TypesSpec.v, the code is in TypesModel.v. *)
From Coq Require Import Ascii String List ZArith Bool Lia.
Import ListNotations.
From Verif Require Import TypesModel TypesSpec.
From Verif Require DdlModel DdlSpec DdlProofs.
Open Scope Z_scope.

(* C55. Decimals: exactly which are accepted, and as what *)
Lemma as_u8_range n : 0 <= as_u8 n < 256. Proof. unfold as_u8. apply Z.mod_pos_bound. lia. Qed.
Lemma as_i8_range n : -128 <= as_i8 n < 128.
Proof. unfold as_i8. pose proof (Z.mod_pos_bound n 256). destruct (Z.ltb_spec (n mod 256) 128); lia. Qed.
Lemma as_u8_small n : 0 <= n < 256 -> as_u8 n = n. Proof. intros H. unfold as_u8. apply Z.mod_small. exact H. Qed.
Lemma as_i8_small n : 0 <= n < 128 -> as_i8 n = n. Proof. intros H. unfold as_i8. rewrite Z.mod_small by lia. destruct (Z.ltb_spec n 128); lia. Qed.
Lemma as_i8_zero : as_i8 0 = 0. Proof. reflexivity. Qed.
Lemma make_decimal p s : make_decimal_type (Some p) (Some s) =
  if ((as_u8 p =? 0) || (38 <? as_u8 p) || (as_u8 p <? Z.abs (as_i8 s)))%bool then None else Some (ADecimal128 (as_u8 p) (as_i8 s)).
Proof. reflexivity. Qed.
Lemma make_decimal1 p : make_decimal_type (Some p) None = make_decimal_type (Some p) (Some 0).
Proof. reflexivity. Qed.
Lemma make_decimal_some p s a : make_decimal_type (Some p) (Some s) = Some a -> a = ADecimal128 (as_u8 p) (as_i8 s) /\ 0 < as_u8 p <= 38 /\ Z.abs (as_i8 s) <= as_u8 p.
Proof.
  rewrite make_decimal. pose proof (as_u8_range p). destruct (Z.eqb_spec (as_u8 p) 0); [discriminate|]. destruct (Z.ltb_spec 38 (as_u8 p)); [discriminate|].
  destruct (Z.ltb_spec (as_u8 p) (Z.abs (as_i8 s))); [discriminate|]. cbn. intros E. injection E as <-. split; [reflexivity|lia].
Qed.
Theorem c55_decimal_partial p s : 0 <= p < 256 -> 0 <= s < 128 ->
  convert_simple_data_type (Decimal (PrecisionAndScale p s)) = (if ((0 <? p) && (p <=? 38) && (s <=? p))%bool then Some (ADecimal128 p s) else None).
Proof.
  intros Hp Hs. cbn [convert_simple_data_type]. rewrite make_decimal, as_u8_small, as_i8_small by lia.
  destruct (Z.eqb_spec p 0), (Z.ltb_spec 38 p), (Z.ltb_spec p (Z.abs s)), (Z.ltb_spec 0 p), (Z.leb_spec p 38), (Z.leb_spec s p); cbn; try reflexivity; lia.
Qed.
(* Every type that is accepted is honoured exactly if it is one of which the code keeps everything. *)
Ltac range := intros v; unfold from_to; cbn; split; intros (n & -> & H); exists n; (split; [reflexivity|]); lia.
Lemma decimal_kept p s a : 0 <= p -> 0 <= s -> make_decimal_type (Some p) (Some s) = Some a -> (forall v, decimal p s v <-> arrow_value a v) <-> p < 256 /\ s < 128.
Proof.
  intros Hp Hs E. apply make_decimal_some in E as (-> & R1 & R2). split.
  - intros H. split.
    + destruct (Z.ltb_spec p 256) as [L|G]; [exact L|exfalso]. pose proof (as_u8_range p) as R.
      assert (X : decimal p s (VDecimal (10 ^ as_u8 p) s)).
      { eexists. split; [reflexivity|]. rewrite Z.abs_eq by (apply Z.pow_nonneg; lia). apply Z.pow_lt_mono_r; lia. }
      apply H in X as (m & X & L). injection X as <- _. rewrite Z.abs_eq in L by (apply Z.pow_nonneg; lia). lia.
    + destruct (Z.ltb_spec s 128) as [L|G]; [exact L|exfalso]. pose proof (as_i8_range s) as R.
      assert (X : decimal p s (VDecimal 0 s)) by (exists 0; split; [reflexivity|]; cbn; apply Z.pow_pos_nonneg; lia).
      apply H in X as (m & X & _). injection X as _ X. lia.
  - intros [Lp Ls] v. rewrite as_u8_small, as_i8_small by lia. reflexivity.
Qed.
Fixpoint a_text (n : nat) : string := match n with O => EmptyString | S n => String "a"%char (a_text n) end.
Lemma a_text_length n : String.length (a_text n) = n. Proof. induction n; cbn; [reflexivity|]. rewrite IHn. reflexivity. Qed.
Lemma short_not_text n : ~ forall v, short_text n v <-> text v.
Proof.
  intros H. assert (X : text (VText (a_text (S (Z.to_nat n))))) by (eexists; reflexivity). apply H in X as (t & X & L). assert (Y : t = a_text (S (Z.to_nat n))) by congruence. rewrite Y, a_text_length in L. lia.
Qed.
Theorem c55_honoured_exactly t a : numbers t -> convert_simple_data_type t = Some a -> honoured t a <-> kept_type t.
Proof.
  intros N E. unfold honoured.
  assert (T : forall A : Prop, A -> (A <-> True)) by (intros; split; auto).
  destruct t; cbn [convert_simple_data_type numbers] in E, N; try discriminate; try (injection E as <-).
  all: try (cbn [kept_type]; apply T; first [range | intros v; reflexivity]).
  - destruct p as [p|]; cbn [sql_value kept_type arrow_value].
    + destruct (Z.leb_spec p 24); split; intros; [assumption|reflexivity| |lia]. exfalso.
      assert (X : double (VFloat (2 ^ 24) 0)) by (exists (2 ^ 24), 0; repeat split; cbn; lia). apply H0 in X as (m & e & X & L & _). injection X as <- <-. cbn in L. lia.
    + apply T. reflexivity.
  - destruct n as [n|]; cbn [sql_value kept_type arrow_value]; (split; [|intros []]; intros H; exact (short_not_text _ H)).
  - destruct n as [n|]; cbn [sql_value kept_type arrow_value]; [|apply T; reflexivity]. split; [|intros []]; intros H; exact (short_not_text _ H).
  - destruct n as [n|]; cbn [sql_value kept_type arrow_value]; [|apply T; reflexivity]. split; [|intros []]; intros H; exact (short_not_text _ H).
  - destruct p; [discriminate|]. injection E as <-. apply T. destruct tz; cbn; reflexivity.
  - destruct p; [discriminate|]. destruct tz; try discriminate; injection E as <-; apply T; cbn; reflexivity.
  - destruct e as [|p|p s]; cbn [sql_value kept_type].
    + apply T. injection E as <-. reflexivity.
    + rewrite make_decimal1 in E. rewrite (decimal_kept p 0 a N ltac:(lia) E). lia.
    + exact (decimal_kept p s a (proj1 N) (proj2 N) E).
  - destruct e as [|p|p s]; cbn [sql_value kept_type].
    + apply T. injection E as <-. reflexivity.
    + rewrite make_decimal1 in E. rewrite (decimal_kept p 0 a N ltac:(lia) E). lia.
    + exact (decimal_kept p s a (proj1 N) (proj2 N) E).
Qed.
Theorem c55_honoured_partial t a : numbers t -> kept_type t -> convert_simple_data_type t = Some a -> honoured t a.
Proof. intros N K E. apply (c55_honoured_exactly t a N E). exact K. Qed.
(* What is accepted and not honoured: decimals whose precision is 1 to 38 beyond a multiple of 256, or whose scale wraps around; floats of more
   than 24 digits; text of limited length. *)
Theorem c55_decimal_refuted p s k : 0 < p <= 38 -> 0 <= s <= p -> 0 < k ->
  convert_simple_data_type (Decimal (PrecisionAndScale (p + 256 * k) s)) = Some (ADecimal128 p s) /\ ~ honoured (Decimal (PrecisionAndScale (p + 256 * k) s)) (ADecimal128 p s).
Proof.
  intros Hp Hs Hk.
  assert (E : convert_simple_data_type (Decimal (PrecisionAndScale (p + 256 * k) s)) = Some (ADecimal128 p s)).
  { cbn [convert_simple_data_type]. rewrite make_decimal. assert (X : as_u8 (p + 256 * k) = p) by (unfold as_u8; rewrite Z.mul_comm, Z_mod_plus_full; apply Z.mod_small; lia). rewrite X, as_i8_small by lia.
    destruct (Z.eqb_spec p 0); [lia|]. destruct (Z.ltb_spec 38 p); [lia|]. destruct (Z.ltb_spec p (Z.abs s)); [lia|]. reflexivity. }
  split; [exact E|]. intros H. apply (c55_honoured_exactly _ _) in H; [|cbn [numbers]; lia|exact E]. cbn [kept_type] in H. lia.
Qed.
Theorem c55_scale_refuted p s : 0 < p <= 38 -> 0 < s <= p ->
  convert_simple_data_type (Decimal (PrecisionAndScale p (256 - s))) = Some (ADecimal128 p (- s)) /\ ~ honoured (Decimal (PrecisionAndScale p (256 - s))) (ADecimal128 p (- s)).
Proof.
  intros Hp Hs.
  assert (E : convert_simple_data_type (Decimal (PrecisionAndScale p (256 - s))) = Some (ADecimal128 p (- s))).
  { cbn [convert_simple_data_type]. rewrite make_decimal. assert (X : as_i8 (256 - s) = - s) by (unfold as_i8; rewrite Z.mod_small by lia; destruct (Z.ltb_spec (256 - s) 128); lia). rewrite X, as_u8_small by lia.
    destruct (Z.eqb_spec p 0); [lia|]. destruct (Z.ltb_spec 38 p); [lia|]. destruct (Z.ltb_spec p (Z.abs (- s))); [lia|]. reflexivity. }
  split; [exact E|]. intros H. apply (c55_honoured_exactly _ _) in H; [|cbn [numbers]; lia|exact E]. cbn [kept_type] in H. lia.
Qed.
Theorem c55_float_refuted p : 24 < p -> exists a, convert_simple_data_type (Float (Some p)) = Some a /\ ~ honoured (Float (Some p)) a.
Proof. intros H. exists AFloat32. split; [reflexivity|]. intros C. apply (c55_honoured_exactly _ _) in C; [|exact Logic.I|reflexivity]. cbn in C. lia. Qed.
Theorem c55_length_refuted t n : t = Char n \/ (t = Varchar n /\ n <> None) \/ (t = SString n /\ n <> None) -> exists a, convert_simple_data_type t = Some a /\ ~ honoured t a.
Proof.
  intros H. exists AUtf8. split; [destruct H as [->|[[-> _]|[-> _]]]; reflexivity|]. intros C.
  destruct n as [n|]; destruct H as [->|[[-> H]|[-> H]]]; try contradiction; apply (c55_honoured_exactly _ _) in C; try exact Logic.I; try reflexivity; exact C.
Qed.

(* C83. A column is NOT NULL exactly if it is declared so, and table constraints are refused ... *)
Lemma build_schema_forall cs fs : build_schema cs = Some fs -> Forall2 (fun c f => build_field c = Some f) cs fs.
Proof.
  revert fs. induction cs as [|c cs IH]; cbn; intros fs; [intros E; injection E as <-; constructor|].
  destruct (build_field c) eqn:E1; [|discriminate]. destruct (build_schema cs) eqn:E2; [|discriminate]. intros E. injection E as <-. constructor; [exact E1|]. apply IH. reflexivity.
Qed.
Lemma not_null_in l : existsb is_not_null l = true <-> In NotNull l.
Proof. rewrite existsb_exists. split; [intros ([] & H & E); try discriminate; exact H|intros H; exists NotNull; auto]. Qed.
Lemma plan_some c d : plan_create_table c = Some d -> ct_constraints c = [] /\ ct_table_properties c = [] /\ ct_with_options c = [] /\ d_name d = ct_name c /\ d_if_not_exists d = ct_if_not_exists c /\ build_schema (ct_columns c) = Some (d_fields d).
Proof.
  unfold plan_create_table. destruct (ct_constraints c); [|discriminate]. destruct (ct_table_properties c); [|discriminate]. destruct (ct_with_options c); [|discriminate].
  cbn [is_nil andb]. destruct (build_schema (ct_columns c)); [|discriminate]. intros E. injection E as <-. cbn. auto 10.
Qed.
Theorem c83_columns c d : plan_create_table c = Some d ->
  Forall2 (fun k f => column_name (c_name k) (f_name f) /\ convert_simple_data_type (c_type k) = Some (f_type f) /\ (f_nullable f = false <-> In NotNull (c_options k))) (ct_columns c) (d_fields d).
Proof.
  intros E. apply plan_some in E as (_ & _ & _ & _ & _ & E). apply build_schema_forall in E. induction E as [|k f l l' E _ IH]; constructor; [|exact IH]. revert E. unfold build_field.
  destruct (convert_simple_data_type (c_type k)) as [t|]; [|discriminate]. intros E. injection E as <-. cbn [f_name f_type f_nullable]. split; [|split; [reflexivity|]].
  - unfold column_name, normalize_ident. destruct (snd (c_name k)); [reflexivity|]. apply DdlProofs.lower_spec.
  - rewrite negb_false_iff. apply not_null_in.
Qed.
Theorem c83_constraints_rejected c : ct_constraints c <> [] -> plan_create_table c = None.
Proof. intros H. destruct (plan_create_table c) eqn:E; [|reflexivity]. apply plan_some in E as (E & _). contradiction. Qed.
(* ... but all else that is said about a column is lost: keys, uniqueness, references, checks and defaults, and a PRIMARY KEY may be null. *)
Theorem c83_options_refuted c cols : Forall2 same_but_options (ct_columns c) cols ->
  plan_create_table {| ct_name := ct_name c; ct_columns := cols; ct_constraints := ct_constraints c; ct_table_properties := ct_table_properties c; ct_with_options := ct_with_options c;
    ct_if_not_exists := ct_if_not_exists c; ct_temporary := ct_temporary c; ct_transient := ct_transient c; ct_like := ct_like c; ct_clone := ct_clone c;
    ct_partition_by := ct_partition_by c; ct_order_by := ct_order_by c; ct_comment := ct_comment c |} = plan_create_table c.
Proof.
  intros H. unfold plan_create_table. cbn [ct_columns ct_constraints ct_table_properties ct_with_options ct_name ct_if_not_exists].
  assert (X : build_schema cols = build_schema (ct_columns c)); [|rewrite X; reflexivity].
  induction H as [|k k' l l' (E1 & E2 & E3) _ IH]; [reflexivity|]. cbn. unfold build_field. rewrite E1, E2, IH.
  assert (Y : existsb is_not_null (c_options k') = existsb is_not_null (c_options k)); [|rewrite Y; reflexivity].
  apply Bool.eq_iff_eq_true. rewrite !not_null_in. symmetry. exact E3.
Qed.
Theorem c83_primary_key_refuted c d n k f : plan_create_table c = Some d -> nth_error (ct_columns c) n = Some k -> nth_error (d_fields d) n = Some f ->
  In PrimaryKey (c_options k) -> ~ In NotNull (c_options k) -> f_nullable f = true.
Proof.
  intros E Ek Ef _ N. apply c83_columns in E. revert n Ek Ef. induction E as [|k' f' l l' (_ & _ & H) _ IH]; intros [|n]; cbn; try discriminate.
  - intros X Y. injection X as ->. injection Y as ->. destruct (f_nullable f) eqn:Z; [reflexivity|]. exfalso. apply N. apply H. reflexivity.
  - intros X Y. exact (IH n X Y).
Qed.

(* C84. CREATE TABLE has no regard for TEMPORARY, LIKE, CLONE, PARTITION BY, ORDER BY and COMMENT, and does not refuse them. *)
Theorem c84_refuted c tmp tra li cl pb ob cm :
  plan_create_table {| ct_name := ct_name c; ct_columns := ct_columns c; ct_constraints := ct_constraints c; ct_table_properties := ct_table_properties c; ct_with_options := ct_with_options c;
    ct_if_not_exists := ct_if_not_exists c; ct_temporary := tmp; ct_transient := tra; ct_like := li; ct_clone := cl; ct_partition_by := pb; ct_order_by := ob; ct_comment := cm |} = plan_create_table c.
Proof. reflexivity. Qed.
(* So a table created LIKE another has no columns. *)
Theorem c84_like_refuted c t : ct_like c = Some t -> ct_columns c = [] -> ct_constraints c = [] -> ct_table_properties c = [] -> ct_with_options c = [] ->
  exists d, plan_create_table c = Some d /\ d_fields d = [].
Proof. intros _ E E1 E2 E3. unfold plan_create_table. rewrite E, E1, E2, E3. eexists. split; reflexivity. Qed.
(* Table properties and options are refused. *)
Theorem c84_partial c : ct_table_properties c <> [] \/ ct_with_options c <> [] -> plan_create_table c = None.
Proof. intros H. destruct (plan_create_table c) eqn:E; [|reflexivity]. apply plan_some in E as (_ & E1 & E2 & _). destruct H; contradiction. Qed.

(* C85. Columns that are written with different names have different names; columns with the same name are not refused. *)
Theorem c85_partial c d : plan_create_table c = Some d ->
  (forall i j k k' n, nth_error (ct_columns c) i = Some k -> nth_error (ct_columns c) j = Some k' -> column_name (c_name k) n -> column_name (c_name k') n -> i = j) -> NoDup (map f_name (d_fields d)).
Proof.
  intros E H. apply c83_columns in E. apply NoDup_nth_error. intros i j L Eij. rewrite map_length in L.
  assert (X : forall i n, nth_error (map f_name (d_fields d)) i = Some n -> exists k, nth_error (ct_columns c) i = Some k /\ column_name (c_name k) n).
  { clear - E. induction E as [|k f l l' (Hn & _) _ IH]; intros [|i] n; cbn; try discriminate; [|apply IH]. intros X. injection X as <-. exists k. auto. }
  destruct (nth_error (map f_name (d_fields d)) i) as [n|] eqn:Ei; [|apply nth_error_None in Ei; rewrite map_length in Ei; lia].
  destruct (X i n Ei) as (k & Ek & Nk). destruct (X j n (eq_sym Eij)) as (k' & Ek' & Nk'). exact (H i j k k' n Ek Ek' Nk Nk').
Qed.
Theorem c85_refuted c d i j k k' n : plan_create_table c = Some d -> i <> j -> nth_error (ct_columns c) i = Some k -> nth_error (ct_columns c) j = Some k' ->
  column_name (c_name k) n -> column_name (c_name k') n -> ~ NoDup (map f_name (d_fields d)).
Proof.
  intros E Nij Ei Ej Hn Hn' D. apply c83_columns in E.
  assert (U : forall i n n', column_name i n -> column_name i n' -> n = n').
  { intros [v []] x y; unfold column_name; cbn; [congruence|]. intros A B. apply DdlProofs.lower_case_lower in A, B. congruence. }
  assert (X : forall i k n, nth_error (ct_columns c) i = Some k -> column_name (c_name k) n -> nth_error (map f_name (d_fields d)) i = Some n).
  { clear - E U. induction E as [|k0 f l l' (H & _) _ IH]; intros [|i] k n; cbn; try discriminate; [|apply IH]. intros X Y. injection X as ->. rewrite (U _ _ _ H Y). reflexivity. }
  rewrite NoDup_nth_error in D. apply Nij. apply D; [|rewrite (X i k n Ei Hn), (X j k' n Ej Hn'); reflexivity].
  apply nth_error_Some. rewrite (X i k n Ei Hn). discriminate.
Qed.

(* Examples *)
Definition ex_column (n : string) (q : bool) (t : sql_type) (o : list column_option) : column := {| c_name := (n, q); c_type := t; c_options := o |}.
Definition ex_table (cs : list column) : create_table :=
  {| ct_name := "t"; ct_columns := cs; ct_constraints := []; ct_table_properties := []; ct_with_options := []; ct_if_not_exists := false; ct_temporary := true; ct_transient := false;
     ct_like := None; ct_clone := None; ct_partition_by := None; ct_order_by := None; ct_comment := None |}.
Example ex_types : convert_simple_data_type (Decimal (PrecisionAndScale 20 5)) = Some (ADecimal128 20 5) /\ kept_type (Decimal (PrecisionAndScale 20 5)) /\ numbers (Decimal (PrecisionAndScale 20 5)) /\
  convert_simple_data_type (Decimal (PrecisionAndScale 39 5)) = None /\ convert_simple_data_type (Decimal (PrecisionAndScale 266 2)) = Some (ADecimal128 10 2) /\
  convert_simple_data_type (Decimal (PrecisionAndScale 10 254)) = Some (ADecimal128 10 (-2)).
Proof. vm_compute. intuition congruence. Qed.
Example ex_create : plan_create_table (ex_table [ex_column "Id" false (BigInt None) [PrimaryKey]; ex_column "Id" true Text [NotNull; Check 0]]) =
  Some {| d_name := "t"; d_fields := [{| f_name := "id"; f_type := AInt 64 true; f_nullable := true |}; {| f_name := "Id"; f_type := AUtf8; f_nullable := false |}]; d_if_not_exists := false |}.
Proof. reflexivity. Qed.
Example ex_duplicate : exists d, plan_create_table (ex_table [ex_column "a" false Date []; ex_column "A" false Text []]) = Some d /\ map f_name (d_fields d) = ["a"; "a"]%string.
Proof. eexists. split; reflexivity. Qed.
Print Assumptions c55_decimal_partial.
Print Assumptions c55_honoured_exactly.
Print Assumptions c55_honoured_partial.
Print Assumptions c55_decimal_refuted.
Print Assumptions c55_scale_refuted.
Print Assumptions c55_float_refuted.
Print Assumptions c55_length_refuted.
Print Assumptions c83_columns.
Print Assumptions c83_constraints_rejected.
Print Assumptions c83_options_refuted.
Print Assumptions c83_primary_key_refuted.
Print Assumptions c84_refuted.
Print Assumptions c84_like_refuted.
Print Assumptions c84_partial.
Print Assumptions c85_partial.
Print Assumptions c85_refuted.
