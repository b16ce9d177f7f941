(* The SQL that Seafowl parses itself. What the properties say is in SqlSpec.v (and DdlSpec.v for lower case); the parser and the planning of
   its statements are in SqlModel.v. The parsers of sqlparser that it delegates to are parameters of each theorem. *)
From Coq Require Import String List Arith Bool Lia Permutation.
Import ListNotations.
From Verif Require Import SqlModel SqlSpec SqlProofs SqlClauses SqlPlans.
From Verif Require CatalogModel CatalogSpec CatalogProofs CatalogEffects DdlModel DdlSpec DdlProofs DdlEffects DdlProps.
Open Scope list_scope.

Section Props.
Variable native_statement native_create native_query native_expr native_type : P nat.
Variable native_constraint native_option : P (option nat).
Variable upper : string -> string.
Notation psql := (parse_sql native_statement native_create native_query native_expr native_type native_constraint native_option upper).
Notation pstmt := (parse_statement native_statement native_create native_query native_expr native_type native_constraint native_option upper).
Notation pcreate := (parse_create native_create native_expr native_type native_constraint native_option upper).

(* C54. A request is split at its semicolons, if the parsers of sqlparser stop there. Missing: COPY before the last statement. *)
Section C54.
Hypothesis (Ls : stops_at_semicolon native_statement) (Lc : stops_at_semicolon native_create) (Lq : stops_at_semicolon native_query)
  (Le : stops_at_semicolon native_expr) (Lt : stops_at_semicolon native_type) (Lk : stops_at_semicolon native_constraint) (Lo : stops_at_semicolon native_option)
  (Nk : not_empty native_constraint) (No : not_empty native_option).
Theorem c54_split_partial pieces : Forall piece pieces -> Forall (fun p => ~ is_copy p) (removelast pieces) ->
  psql (request pieces) = all_of (map psql pieces).
Proof.
  induction pieces as [|p ps IH]; intros Hp Hc; [reflexivity|]. inversion Hp as [|? ? Pp Pps]; subst. destruct ps as [|p2 ps].
  - cbn [request map all_of]. destruct (psql p) as [l|]; [rewrite app_nil_r|]; reflexivity.
  - change (removelast (p :: p2 :: ps)) with (p :: removelast (p2 :: ps)) in Hc. inversion Hc as [|? ? Cp Cps]; subst.
    change (request (p :: p2 :: ps)) with (p ++ Semi :: request (p2 :: ps)).
    rewrite (psql_cons native_statement native_create native_query native_expr native_type native_constraint native_option upper Ls Lc Lq Le Lt Lk Lo Nk No p _ Pp Cp).
    rewrite (IH Pps Cps). cbn [map all_of]. destruct (psql p) as [l|]; [|reflexivity]. destruct (psql p2) as [l2|]; [|reflexivity].
    destruct (all_of (map psql ps)) as [l3|]; [|reflexivity]. rewrite app_nil_r. reflexivity.
Qed.
(* COPY takes the semicolon for itself, so that the statement after it is refused. *)
Theorem c54_copy_refuted p t rest : piece p -> is_copy p -> t <> Semi -> psql (p ++ Semi :: t :: rest) = None.
Proof.
  intros Pp Cp Nt. rewrite (psql_copy native_statement native_create native_query native_expr native_type native_constraint native_option upper Ls Lc Lq Le Lt Lk Lo Nk No p (t :: rest) Pp Cp).
  destruct (psql p) as [l|]; [|reflexivity]. destruct t; try reflexivity. contradiction.
Qed.
(* A second semicolon helps. *)
Theorem c54_copy_doubled_partial p tail : piece p -> is_copy p -> psql (p ++ Semi :: Semi :: tail) = all_of [psql p; psql tail].
Proof.
  intros Pp Cp. rewrite (psql_copy native_statement native_create native_query native_expr native_type native_constraint native_option upper Ls Lc Lq Le Lt Lk Lo Nk No p (Semi :: tail) Pp Cp).
  assert (E : psql (Semi :: tail) = psql tail).
  { pose proof (psql_cons native_statement native_create native_query native_expr native_type native_constraint native_option upper Ls Lc Lq Le Lt Lk Lo Nk No [] tail) as H.
    cbn [app] in H. rewrite H; [|intros []|intros (v & q & r & C); discriminate]. cbn [all_of]. change (psql []) with (@Some (list statement) []). destruct (psql tail) as [l|]; cbn; [rewrite app_nil_r|]; reflexivity. }
  destruct (psql p) as [l|]; [|reflexivity]. rewrite E. reflexivity.
Qed.
(* C80. CREATE OR REPLACE of anything but a function is the same as CREATE: the flag is lost. *)
Theorem c80_or_replace_refuted t t1 t2 x rest : kw "CREATE" t -> kw "OR" t1 -> kw "REPLACE" t2 -> ~ kw "OR" x -> ~ kw "FUNCTION" x -> piece (x :: rest) ->
  psql (t :: t1 :: t2 :: x :: rest) = psql (t :: x :: rest).
Proof.
  intros K K1 K2 Nor Nf Pc.
  assert (E : pstmt (t :: t1 :: t2 :: x :: rest) = pstmt (t :: x :: rest)).
  { unfold parse_statement. rewrite !(bind_some _ _ _ _ _ (one_of_kw ["CREATE"; "CONVERT"; "COPY"; "VACUUM"; "TRUNCATE"]%string "CREATE" t _ K eq_refl)).
    cbn [statement_of String.eqb Ascii.eqb Bool.eqb]. unfold parse_create. rewrite (bind_some _ _ _ _ _ (keywords_two "OR" "REPLACE" t1 t2 _ K1 K2)).
    assert (Ex : is_kw "OR" x = false) by (destruct x; try reflexivity; cbn; destruct (String.eqb_spec kw "OR"); [subst; exfalso; apply Nor; eexists _, _; reflexivity|reflexivity]).
    assert (Ef : is_kw "FUNCTION" x = false) by (destruct x; try reflexivity; cbn; destruct (String.eqb_spec kw "FUNCTION"); [subst; exfalso; apply Nf; eexists _, _; reflexivity|reflexivity]).
    rewrite (bind_some _ _ _ _ _ (keywords_no1 "OR" ["REPLACE"]%string x rest Ex)).
    pose proof (keyword_no "FUNCTION" (x :: rest) Ef) as Ek. unfold bind in *.
    destruct (keyword "EXTERNAL" (x :: rest)) as [[[] r]|] eqn:E1; [reflexivity| |reflexivity]. rewrite (keyword_false _ _ _ E1).
    destruct (keyword "UNBOUNDED" (x :: rest)) as [[[] r2]|] eqn:E2; [reflexivity| |reflexivity]. rewrite (keyword_false _ _ _ E2).
    rewrite Ek. reflexivity. }
  assert (Nk' : forall k u, kw k u -> u <> Semi) by (intros k u H; exact (kw_not_semi _ _ H)).
  assert (P1 : piece (t :: x :: rest)) by (intros [Z|Z]; [exact (Nk' _ _ K Z)|exact (Pc Z)]).
  assert (P2 : piece (t :: t1 :: t2 :: x :: rest)) by (intros [Z|[Z|[Z|Z]]]; [exact (Nk' _ _ K Z)|exact (Nk' _ _ K1 Z)|exact (Nk' _ _ K2 Z)|exact (Pc Z)]).
  rewrite (psql_piece native_statement native_create native_query native_expr native_type native_constraint native_option upper Ls Lc Lq Le Lt Lk Lo Nk No _ P1).
  rewrite (psql_piece native_statement native_create native_query native_expr native_type native_constraint native_option upper Ls Lc Lq Le Lt Lk Lo Nk No _ P2).
  rewrite E. reflexivity.
Qed.
(* C81. TRUNCATE, VACUUM and CONVERT are executed exactly for the statements that are written so; COPY and CREATE only for COPY and CREATE. *)
Theorem c81_truncate ts n : piece ts -> (exists s, psql ts = Some [s] /\ plan_of s = Some (PTruncate n)) <-> written_as (PTruncate n) ts.
Proof.
  intros H. rewrite (psql_piece native_statement native_create native_query native_expr native_type native_constraint native_option upper Ls Lc Lq Le Lt Lk Lo Nk No _ H). split.
  - intros (s & E & Ep). destruct ts as [|t ts]; [discriminate|]. destruct (pstmt (t :: ts)) as [[s' [|]]|] eqn:Es; try discriminate. injection E as ->. exact (plan_written _ _ _ _ _ _ _ _ _ _ _ Es Ep).
  - intros W. exists (TruncateStatement true n None). split; [|reflexivity]. destruct ts as [|t ts]; [destruct W as (? & ? & ? & W & _); discriminate W|].
    rewrite (truncate_written native_statement native_create native_query native_expr native_type native_constraint native_option upper n _ W). reflexivity.
Qed.
Theorem c81_vacuum ts d tb : piece ts -> (exists s, psql ts = Some [s] /\ plan_of s = Some (PVacuum d tb)) <-> written_as (PVacuum d tb) ts.
Proof.
  intros H. rewrite (psql_piece native_statement native_create native_query native_expr native_type native_constraint native_option upper Ls Lc Lq Le Lt Lk Lo Nk No _ H). split.
  - intros (s & E & Ep). destruct ts as [|t ts]; [discriminate|]. destruct (pstmt (t :: ts)) as [[s' [|]]|] eqn:Es; try discriminate. injection E as ->. exact (plan_written _ _ _ _ _ _ _ _ _ _ _ Es Ep).
  - intros W. destruct (vacuum_written native_statement native_create native_query native_expr native_type native_constraint native_option upper d tb _ W) as (s & E & Ep). exists s. split; [|exact Ep].
    destruct ts as [|t ts]; [destruct W as (? & ? & ? & ? & W & _); discriminate W|]. rewrite E. reflexivity.
Qed.
Theorem c81_convert ts l n : piece ts -> (exists s, psql ts = Some [s] /\ plan_of s = Some (PConvert l n)) <-> written_as (PConvert l n) ts.
Proof.
  intros H. rewrite (psql_piece native_statement native_create native_query native_expr native_type native_constraint native_option upper Ls Lc Lq Le Lt Lk Lo Nk No _ H). split.
  - intros (s & E & Ep). destruct ts as [|t ts]; [discriminate|]. destruct (pstmt (t :: ts)) as [[s' [|]]|] eqn:Es; try discriminate. injection E as ->. exact (plan_written _ _ _ _ _ _ _ _ _ _ _ Es Ep).
  - intros W. destruct (convert_written native_statement native_create native_query native_expr native_type native_constraint native_option upper l n _ W) as (s & E & Ep). exists s. split; [|exact Ep].
    destruct ts as [|t ts]; [destruct W as (? & ? & ? & ? & ? & W & _); discriminate W|]. rewrite E. reflexivity.
Qed.
Theorem c81_others ts s p : piece ts -> psql ts = Some [s] -> plan_of s = Some p -> written_as p ts.
Proof.
  intros H E Ep. rewrite (psql_piece native_statement native_create native_query native_expr native_type native_constraint native_option upper Ls Lc Lq Le Lt Lk Lo Nk No _ H) in E.
  destruct ts as [|t ts]; [discriminate|]. destruct (pstmt (t :: ts)) as [[s' [|]]|] eqn:Es; try discriminate. injection E as ->. exact (plan_written _ _ _ _ _ _ _ _ _ _ _ Es Ep).
Qed.
(* ... and a COPY is a copy, whatever its options are *)
Theorem c81_copy ts s : piece ts -> is_copy ts -> psql ts = Some [s] -> exists src t p st o, plan_of s = Some (PCopy src t p st o).
Proof.
  intros H (v & q & r & ->) E. rewrite (psql_piece native_statement native_create native_query native_expr native_type native_constraint native_option upper Ls Lc Lq Le Lt Lk Lo Nk No _ H) in E.
  destruct (pstmt (Word v q "COPY" :: r)) as [[s' [|]]|] eqn:Es; try discriminate. injection E as ->.
  unfold parse_statement in Es. rewrite (bind_some _ _ _ _ _ (one_of_kw five "COPY" (Word v q "COPY") r (ex_intro _ v (ex_intro _ q eq_refl)) eq_refl)) in Es. exact (copy_plan _ _ _ _ _ Es).
Qed.
End C54.

(* C79. The clauses of COPY, each at most once and TO once, in any order. *)
Definition none := {| cb_stored := None; cb_target := None; cb_partitioned := None; cb_options := None |}.
Theorem c79_copy t s ss cs tss target : kw "COPY" t -> writes_source native_query s ss -> Forall2 (writes_clause upper) cs tss ->
  targets cs = [target] -> length (formats cs) <= 1 -> length (partitionings cs) <= 1 -> length (option_lists cs) <= 1 ->
  psql (t :: ss ++ concat tss) = Some [CopyTo s target (concat (partitionings cs)) (hd_error (formats cs)) (concat (option_lists cs))].
Proof.
  intros K W F Et L1 L2 L3. rewrite (copy_written upper native_statement native_create native_query native_expr native_type native_constraint native_option t s ss cs tss K W F). fold none.
  pose proof (add_all_spec cs none) as A. destruct (add_all none cs) as [b|].
  - destruct A as (A1 & A2 & A3 & A4). cbn [none cb_stored cb_target cb_partitioned cb_options of_opt app] in *. rewrite Et in A2. destruct (cb_target b) as [x|]; [|discriminate]. injection A2 as ->.
    rewrite !of_opt_list, A3, A4, (of_opt_hd (cb_stored b)), A1. reflexivity.
  - exfalso. cbn [none cb_stored cb_target cb_partitioned cb_options of_opt app] in A. rewrite Et in A. cbn in A. lia.
Qed.
Theorem c79_copy_rejected t s ss cs tss : kw "COPY" t -> writes_source native_query s ss -> Forall2 (writes_clause upper) cs tss ->
  length (targets cs) <> 1 \/ 1 < length (formats cs) \/ 1 < length (partitionings cs) \/ 1 < length (option_lists cs) -> psql (t :: ss ++ concat tss) = None.
Proof.
  intros K W F L. rewrite (copy_written upper native_statement native_create native_query native_expr native_type native_constraint native_option t s ss cs tss K W F). fold none.
  pose proof (add_all_spec cs none) as A. destruct (add_all none cs) as [b|]; [|reflexivity].
  destruct A as (A1 & A2 & A3 & A4). cbn [none cb_stored cb_target cb_partitioned cb_options of_opt app] in *.
  pose proof (of_opt_le (cb_stored b)). pose proof (of_opt_le (cb_partitioned b)). pose proof (of_opt_le (cb_options b)). rewrite A1, A3, A4 in *.
  destruct (cb_target b) as [x|]; [|reflexivity]. exfalso. rewrite <- A2 in L. cbn in L. lia.
Qed.
Lemma flat_map_perm {A B} (f : A -> list B) l l' : Permutation l l' -> Permutation (flat_map f l) (flat_map f l').
Proof. intros H. induction H as [|x l l' H IH|x y l|l l' l'' H IH H' IH']; cbn; [constructor|apply Permutation_app_head; exact IH|rewrite !app_assoc; apply Permutation_app_tail; apply Permutation_app_comm|exact (Permutation_trans IH IH')]. Qed.
Lemma short_perm {A} (l l' : list A) : Permutation l l' -> length l <= 1 -> l = l'.
Proof.
  intros H L. destruct l as [|x [|y l]]; [symmetry; exact (Permutation_nil H)|symmetry; exact (Permutation_length_1_inv H)|cbn in L; lia].
Qed.
Theorem c79_copy_any_order t s ss l l' : kw "COPY" t -> writes_source native_query s ss -> Forall (fun c => writes_clause upper (fst c) (snd c)) l -> Permutation l l' ->
  psql (t :: ss ++ concat (map snd l)) = psql (t :: ss ++ concat (map snd l')).
Proof.
  intros K W F H. assert (F' : Forall (fun c => writes_clause upper (fst c) (snd c)) l') by exact (Permutation_Forall H F).
  assert (G : forall m : list (clause * list token), Forall (fun c => writes_clause upper (fst c) (snd c)) m -> Forall2 (writes_clause upper) (map fst m) (map snd m)).
  { intros m Fm. induction Fm; cbn; constructor; assumption. }
  pose proof (Permutation_map fst H) as Hf. pose proof (flat_map_perm (fun c => match c with Stored f => [f] | _ => [] end) _ _ Hf) as P1.
  pose proof (flat_map_perm (fun c => match c with To f => [f] | _ => [] end) _ _ Hf) as P2. pose proof (flat_map_perm (fun c => match c with PartitionedBy f => [f] | _ => [] end) _ _ Hf) as P3.
  pose proof (flat_map_perm (fun c => match c with Options f => [f] | _ => [] end) _ _ Hf) as P4.
  pose proof (Permutation_length P1) as L1. pose proof (Permutation_length P2) as L2. pose proof (Permutation_length P3) as L3. pose proof (Permutation_length P4) as L4.
  fold (formats (map fst l)) in *. fold (formats (map fst l')) in *. fold (targets (map fst l)) in *. fold (targets (map fst l')) in *.
  fold (partitionings (map fst l)) in *. fold (partitionings (map fst l')) in *. fold (option_lists (map fst l)) in *. fold (option_lists (map fst l')) in *.
  assert (D : (length (targets (map fst l)) = 1 /\ length (formats (map fst l)) <= 1 /\ length (partitionings (map fst l)) <= 1 /\ length (option_lists (map fst l)) <= 1) \/
    (length (targets (map fst l)) <> 1 \/ 1 < length (formats (map fst l)) \/ 1 < length (partitionings (map fst l)) \/ 1 < length (option_lists (map fst l)))) by lia.
  destruct D as [(D1 & D2 & D3 & D4)|D].
  - destruct (targets (map fst l)) as [|x [|? ?]] eqn:Et; try discriminate. clear D1.
    rewrite (c79_copy t s ss _ _ x K W (G l F) Et D2 D3 D4). rewrite (c79_copy t s ss _ _ x K W (G l' F')); [|symmetry; apply (short_perm _ _ P2); cbn; lia|lia|lia|lia].
    rewrite (short_perm _ _ P1 D2), (short_perm _ _ P3 D3), (short_perm _ _ P4 D4). reflexivity.
  - rewrite (c79_copy_rejected t s ss _ _ K W (G l F) D). rewrite (c79_copy_rejected t s ss _ _ K W (G l' F')); [reflexivity|lia].
Qed.

(* The clauses of CREATE EXTERNAL TABLE: STORED AS and LOCATION once, PARTITIONED BY and OPTIONS at most once, WITH ORDER as often as one likes.
   Columns with their collations and options, and constraints between them, in any mixture. *)
Section External.
Hypothesis No : no_option_here native_option.
Variables (t e tbl : token) (fu temp ine ns cts : list token) (unb tmp ifn : bool) (name : list ident) (cols : list (column + nat)) (cs : list xclause) (tss : list (list token)).
Hypothesis (K : kw "CREATE" t) (Hu : writes_flag ["UNBOUNDED"]%string unb fu) (Ke : kw "EXTERNAL" e) (Ht : writes_temp tmp temp) (Kt : kw "TABLE" tbl)
  (Hi : writes_flag ["IF"; "NOT"; "EXISTS"]%string ifn ine) (Wn : writes_name name ns) (Wc : writes_columns native_type native_constraint native_option cols cts)
  (F : Forall2 (writes_xclause native_expr native_type native_constraint native_option upper) cs tss).
Notation xnone := {| b_file_type := None; b_location := None; b_partitions := None; b_order := []; b_options := None; b_columns := columns_in cols |}.
Theorem c79_external f l : xformats cs = [f] -> xlocations cs = [l] -> length (xpartitionings cs) <= 1 -> length (xoption_lists cs) <= 1 ->
  psql (t :: fu ++ e :: temp ++ tbl :: ine ++ ns ++ cts ++ concat tss) =
  Some [CreateExternalTable {| ex_name := name; ex_columns := columns_in cols ++ xpartition_columns cs; ex_file_type := f; ex_location := l; ex_partitions := concat (xpartitionings cs);
    ex_order := xorders cs; ex_if_not_exists := ifn; ex_temporary := tmp; ex_unbounded := unb; ex_options := concat (xoption_lists cs); ex_constraints := constraints_in cols |}].
Proof.
  intros Ef El L1 L2. rewrite (external_written upper native_statement native_create native_query native_expr native_type native_constraint native_option No t fu e temp tbl ine unb tmp ifn name ns cols cts cs tss K Hu Ke Ht Kt Hi Wn Wc F).
  pose proof (xadd_all_spec cs xnone) as A. destruct (xadd_all xnone cs) as [b|].
  - destruct A as (A1 & A2 & A3 & A4 & A5 & A6). cbn [b_file_type b_location b_partitions b_order b_options b_columns of_opt app] in *. rewrite Ef in A1. rewrite El in A2.
    destruct (b_file_type b) as [x|]; [|discriminate]. injection A1 as ->. destruct (b_location b) as [y|]; [|discriminate]. injection A2 as ->.
    rewrite !of_opt_list, A3, A4, A5, A6. reflexivity.
  - exfalso. cbn [b_file_type b_location b_partitions b_order b_options b_columns of_opt app] in A. rewrite Ef, El in A. cbn in A. lia.
Qed.
Theorem c79_external_rejected : length (xformats cs) <> 1 \/ length (xlocations cs) <> 1 \/ 1 < length (xpartitionings cs) \/ 1 < length (xoption_lists cs) ->
  psql (t :: fu ++ e :: temp ++ tbl :: ine ++ ns ++ cts ++ concat tss) = None.
Proof.
  intros L. rewrite (external_written upper native_statement native_create native_query native_expr native_type native_constraint native_option No t fu e temp tbl ine unb tmp ifn name ns cols cts cs tss K Hu Ke Ht Kt Hi Wn Wc F).
  pose proof (xadd_all_spec cs xnone) as A. destruct (xadd_all xnone cs) as [b|]; [|reflexivity].
  destruct A as (A1 & A2 & A3 & A4 & A5 & A6). cbn [b_file_type b_location b_partitions b_order b_options b_columns of_opt app] in *.
  pose proof (of_opt_le (b_partitions b)). pose proof (of_opt_le (b_options b)). rewrite A3, A4 in *.
  destruct (b_file_type b) as [x|]; [|reflexivity]. destruct (b_location b) as [y|]; [|reflexivity]. exfalso. rewrite <- A1, <- A2 in L. cbn in L. lia.
Qed.
End External.
(* ... so that their order does not matter, except for the order of the WITH ORDER clauses among themselves *)
Theorem c79_external_any_order t e tbl fu temp ine ns cts unb tmp ifn name cols (l l' : list (xclause * list token)) : no_option_here native_option ->
  kw "CREATE" t -> writes_flag ["UNBOUNDED"]%string unb fu -> kw "EXTERNAL" e -> writes_temp tmp temp -> kw "TABLE" tbl -> writes_flag ["IF"; "NOT"; "EXISTS"]%string ifn ine ->
  writes_name name ns -> writes_columns native_type native_constraint native_option cols cts ->
  Forall (fun c => writes_xclause native_expr native_type native_constraint native_option upper (fst c) (snd c)) l -> Permutation l l' -> xorders (map fst l) = xorders (map fst l') ->
  psql (t :: fu ++ e :: temp ++ tbl :: ine ++ ns ++ cts ++ concat (map snd l)) = psql (t :: fu ++ e :: temp ++ tbl :: ine ++ ns ++ cts ++ concat (map snd l')).
Proof.
  intros No K Hu Ke Ht Kt Hi Wn Wc F H Ho. pose proof (Permutation_Forall H F) as F'.
  assert (G : forall m : list (xclause * list token), Forall (fun c => writes_xclause native_expr native_type native_constraint native_option upper (fst c) (snd c)) m ->
    Forall2 (writes_xclause native_expr native_type native_constraint native_option upper) (map fst m) (map snd m)) by (intros m Fm; induction Fm; cbn; constructor; assumption).
  apply G in F. apply G in F'. clear G. pose proof (Permutation_map fst H) as Hf. clear H. revert F F' Ho Hf.
  generalize (map snd l) (map snd l') (map fst l) (map fst l'). clear l l'. intros tss tss' cs cs' F F' Ho Hf.
  pose proof (flat_map_perm (fun c => match c with XStored f => [f] | _ => [] end) _ _ Hf) as P1. fold (xformats cs) in P1. fold (xformats cs') in P1.
  pose proof (flat_map_perm (fun c => match c with XLocation f => [f] | _ => [] end) _ _ Hf) as P2. fold (xlocations cs) in P2. fold (xlocations cs') in P2.
  pose proof (flat_map_perm (fun c => match c with XPartitionNames l => [l] | XPartitionColumns l => [map cd_name l] | _ => [] end) _ _ Hf) as P3. fold (xpartitionings cs) in P3. fold (xpartitionings cs') in P3.
  pose proof (flat_map_perm (fun c => match c with XOptions f => [f] | _ => [] end) _ _ Hf) as P4. fold (xoption_lists cs) in P4. fold (xoption_lists cs') in P4.
  pose proof (flat_map_perm (fun c => match c with XPartitionColumns f => [f] | _ => [] end) _ _ Hf) as P5.
  pose proof (Permutation_length P1) as L1. pose proof (Permutation_length P2) as L2. pose proof (Permutation_length P3) as L3. pose proof (Permutation_length P4) as L4.
  assert (Cc : forall cs, xpartition_columns cs = concat (flat_map (fun c => match c with XPartitionColumns f => [f] | _ => [] end) cs) /\
    length (flat_map (fun c => match c with XPartitionColumns f => [f] | _ => [] end) cs) <= length (xpartitionings cs)).
  { intros m. induction m as [|c m [I1 I2]]; [split; [reflexivity|apply le_n]|]. destruct c; cbn; fold (xpartition_columns m); fold (xpartitionings m); rewrite ?I1; (split; [reflexivity|]); lia. }
  assert (D : (length (xformats cs) = 1 /\ length (xlocations cs) = 1 /\ length (xpartitionings cs) <= 1 /\ length (xoption_lists cs) <= 1) \/
    (length (xformats cs) <> 1 \/ length (xlocations cs) <> 1 \/ 1 < length (xpartitionings cs) \/ 1 < length (xoption_lists cs))) by lia.
  destruct D as [(D1 & D2 & D3 & D4)|D].
  - assert (E1 : xformats cs = xformats cs') by (apply short_perm; [exact P1|lia]). assert (E2 : xlocations cs = xlocations cs') by (apply short_perm; [exact P2|lia]).
    assert (E3 : xpartitionings cs = xpartitionings cs') by (apply short_perm; [exact P3|lia]). assert (E4 : xoption_lists cs = xoption_lists cs') by (apply short_perm; [exact P4|lia]).
    assert (E5 : xpartition_columns cs = xpartition_columns cs').
    { rewrite (proj1 (Cc cs)), (proj1 (Cc cs')). f_equal. apply short_perm; [exact P5|]. pose proof (proj2 (Cc cs)). lia. }
    destruct (xformats cs) as [|f [|]] eqn:Ef; try discriminate. destruct (xlocations cs) as [|loc [|]] eqn:El; try discriminate.
    rewrite (c79_external No t e tbl fu temp ine ns cts unb tmp ifn name cols cs tss K Hu Ke Ht Kt Hi Wn Wc F f loc Ef El D3 D4).
    rewrite (c79_external No t e tbl fu temp ine ns cts unb tmp ifn name cols cs' tss' K Hu Ke Ht Kt Hi Wn Wc F' f loc); [|symmetry; assumption|symmetry; assumption|lia|lia].
    rewrite E3, E4, E5, Ho. reflexivity.
  - rewrite (c79_external_rejected No t e tbl fu temp ine ns cts unb tmp ifn name cols cs tss K Hu Ke Ht Kt Hi Wn Wc F D).
    rewrite (c79_external_rejected No t e tbl fu temp ine ns cts unb tmp ifn name cols cs' tss' K Hu Ke Ht Kt Hi Wn Wc F'); [reflexivity|]. rewrite <- L1, <- L2, <- L3, <- L4. exact D.
Qed.

(* OR REPLACE is kept for functions. *)
Theorem c80_function_partial orr t os f name ns a b d : kw "CREATE" t -> writes_flag ["OR"; "REPLACE"]%string orr os -> kw "FUNCTION" f -> writes_name name ns -> kw "AS" a -> writes_literal d b ->
  exists s, psql (t :: os ++ f :: ns ++ [a; b]) = Some [s] /\ plan_of s = Some (PCreateFunction orr name d).
Proof.
  intros K Ho Kf Wn Ka Wb. exists (CreateFunction orr name (BSingle d)). split; [|reflexivity].
  rewrite (psql_one upper native_statement native_create native_query native_expr native_type native_constraint native_option t _ (kw_not_semi _ _ K)).
  rewrite (function_written native_statement native_create native_query native_expr native_type native_constraint native_option upper orr t os f name ns a b d K Ho Kf Wn Ka Wb). reflexivity.
Qed.
End Props.
Print Assumptions c54_split_partial.
Print Assumptions c54_copy_refuted.
Print Assumptions c54_copy_doubled_partial.
Print Assumptions c79_copy.
Print Assumptions c79_copy_rejected.
Print Assumptions c79_copy_any_order.
Print Assumptions c79_external.
Print Assumptions c79_external_rejected.
Print Assumptions c79_external_any_order.
Print Assumptions c80_or_replace_refuted.
Print Assumptions c80_function_partial.
Print Assumptions c81_truncate.
Print Assumptions c81_vacuum.
Print Assumptions c81_convert.
Print Assumptions c81_others.
Print Assumptions c81_copy.

(* C82. A function is called by the name that it is created with: so for unquoted names in lower case ... *)
Lemma length_app (a b : string) : String.length (a ++ b) = String.length a + String.length b.
Proof. induction a as [|x a IH]; cbn; [reflexivity|]. rewrite IH. reflexivity. Qed.
Theorem c82_partial escape lim be D n orr x c r c' r' ok r2 :
  (exists v, n = [(v, false)] /\ DdlSpec.lower_case v v) \/ length n <> 1 ->
  CatalogSpec.reachable c -> DdlModel.create_function_stmt lim be D (name_string escape n) orr x (c, r) = ((c', r'), ok) -> ok = true ->
  DdlModel.callable D (called_name escape n) (c', r2) = Some x.
Proof.
  intros Hn R E Ok. assert (En : called_name escape n = name_string escape n).
  { destruct Hn as [(v & -> & L)|L]; [exact (DdlProofs.lower_case_lower _ _ L)|]. destruct n as [|i [|j n]]; [reflexivity|contradiction L; reflexivity|reflexivity]. }
  rewrite En. exact (DdlProps.c78_created lim be D _ orr x c r c' r' ok r2 R E Ok).
Qed.
(* ... but not for a name that is quoted or has capitals. *)
Theorem c82_refuted escape lim be D i orr x c r c' r' ok : (forall v, String.length v <= String.length (escape v)) ->
  snd i = true \/ (snd i = false /\ ~ DdlSpec.lower_case (fst i) (fst i)) ->
  CatalogSpec.reachable c -> (forall y, ~ CatalogSpec.has_function c D (called_name escape [i]) y) -> r (called_name escape [i]) = None ->
  DdlModel.create_function_stmt lim be D (name_string escape [i]) orr x (c, r) = ((c', r'), ok) ->
  DdlModel.callable D (called_name escape [i]) (c', r') = None.
Proof.
  intros He Hi R N Nr E. assert (Ne : called_name escape [i] <> name_string escape [i]).
  { destruct i as [v q]. cbn in *. destruct Hi as [->|[-> L]].
    - unfold ident_string. cbn [fst snd]. intros C. apply (f_equal String.length) in C. cbn in C. rewrite length_app in C. cbn in C. specialize (He v). lia.
    - intros C. cbn [fst] in C. apply L. rewrite <- C at 2. exact (DdlProofs.lower_spec v). }
  pose proof (CatalogProofs.wf_reachable c R) as W. unfold DdlModel.create_function_stmt in E. cbn [fst snd] in E.
  destruct (CatalogModel.cstep lim be (CatalogModel.CreateFn D (name_string escape [i]) orr x) c) as [c1 ok1] eqn:Ec. injection E as <- <- <-.
  assert (W1 : CatalogProofs.wf c1) by (pose proof (CatalogProofs.wf_cstep lim be (CatalogModel.CreateFn D (name_string escape [i]) orr x) c W) as P; rewrite Ec in P; exact P).
  assert (N1 : forall y, ~ CatalogSpec.has_function c1 D (called_name escape [i]) y).
  { intros y C. destruct (CatalogEffects.create_fn_effect lim be D (name_string escape [i]) orr x c c1 ok1 W Ec) as (_ & H2 & H3). destruct ok1.
    - destruct (H3 eq_refl) as (F & _). apply F in C as [[C _]|(_ & C & _)]; [exact (N y C)|contradiction].
    - rewrite (H2 eq_refl) in C. exact (N y C). }
  unfold DdlModel.callable. cbn [fst snd]. rewrite (proj2 (DdlEffects.reload_effect c1 D _ _ W1) N1). unfold DdlModel.register.
  destruct (String.eqb_spec (called_name escape [i]) (name_string escape [i])); [contradiction|]. rewrite (proj2 (DdlEffects.reload_effect c D r _ W) N). exact Nr.
Qed.
Print Assumptions c82_partial.
Print Assumptions c82_refuted.

(* Examples. Stand-ins for sqlparser that meet what is asked of it: a statement is the words and literals up to a semicolon, an expression
   or a type is one word, and there are neither constraints nor options of columns. *)
Fixpoint words (ts : list token) : nat * list token :=
  match ts with Semi :: _ => (0, ts) | _ :: r => let '(n, r') := words r in (S n, r') | [] => (0, []) end.
Definition ex_words : P nat := fun ts => match words ts with (0, _) => None | (n, r) => Some (n, r) end.
Definition ex_word : P nat := next (fun t => match t with Word _ _ _ => Some 0 | _ => None end).
Definition ex_nothing : P (option nat) := fun ts => Some (None, ts).
Lemma ex_words_ok : stops_at_semicolon ex_words.
Proof.
  assert (G : forall ts tail, piece ts -> words (ts ++ Semi :: tail) = (fst (words ts), snd (words ts) ++ Semi :: tail) /\ exists u, ts = u ++ snd (words ts)).
  { induction ts as [|t ts IH]; intros tail H; [split; [reflexivity|exists []; reflexivity]|]. apply piece_cons in H as [Nt H]. destruct (IH tail H) as [E [u Eu]].
    destruct t; try contradiction; cbn [words app]; rewrite E; destruct (words ts) as [m r]; cbn [fst snd] in *; (split; [reflexivity|]); eexists (_ :: u); cbn [app]; rewrite <- Eu; reflexivity. }
  intros ts H. split.
  - intros tail. unfold ex_words. rewrite (proj1 (G ts tail H)). destruct (words ts) as [[|n] r]; reflexivity.
  - intros x r. unfold ex_words. destruct (G ts [] H) as [_ [u Eu]]. destruct (words ts) as [[|n] r']; [discriminate|]. intros E. injection E as _ <-. exists u. exact Eu.
Qed.
Lemma ex_word_ok : stops_at_semicolon ex_word. Proof. apply local_next. reflexivity. Qed.
Lemma ex_nothing_ok : stops_at_semicolon ex_nothing /\ not_empty ex_nothing /\ no_option_here ex_nothing.
Proof. split; [intros ts H; split; [reflexivity|intros x r E; injection E as _ <-; exists []; reflexivity]|]. split; [intros ts x r E; discriminate|intros t r _; reflexivity]. Qed.
Notation ex_sql := (parse_sql ex_words ex_words ex_words ex_word ex_word ex_nothing ex_nothing (fun s => s)).
Definition K (k : string) : token := Word k false k.
Definition W (w : string) : token := Word w false "".
Definition ex_copy : list token := [K "COPY"; W "t"; K "TO"; Str "s3://b/f"; K "STORED"; K "AS"; W "parquet"; K "OPTIONS"; LParen; W "format"; Period; W "compression"; W "zstd"; RParen].
Definition ex_drop : list token := [K "DROP"; K "TABLE"; W "t"].
Definition ex_trunc : list token := [K "TRUNCATE"; K "TABLE"; W "s"; Period; W "t"].
(* C54: two statements one after the other; the same after a COPY are refused, although each parses alone *)
Example ex_split : Forall piece [ex_trunc; ex_drop; ex_copy] /\ Forall (fun p => ~ is_copy p) (removelast [ex_trunc; ex_drop; ex_copy]) /\
  ex_sql (request [ex_trunc; ex_drop; ex_copy]) =
  Some [TruncateStatement true [("s", false); ("t", false)]%string None; Native 3; CopyTo (SRelation [("t", false)]%string) "s3://b/f" [] (Some "parquet"%string) [("format.compression", VSingle "zstd")]%string].
Proof.
  split; [repeat constructor; unfold piece; cbn; intuition discriminate|]. split; [repeat constructor; intros (v & q & r & C); discriminate C|]. vm_compute. reflexivity.
Qed.
Example ex_copy_first : piece ex_copy /\ is_copy ex_copy /\ (exists l, ex_sql ex_copy = Some l) /\ (exists l, ex_sql ex_drop = Some l) /\ ex_sql (request [ex_copy; ex_drop]) = None /\
  exists l, ex_sql (request [ex_copy; []; ex_drop]) = Some l.
Proof.
  split; [unfold piece; cbn; intuition discriminate|]. split; [eexists _, _, _; reflexivity|]. repeat split; try (eexists; vm_compute; reflexivity). 
Qed.
(* C79: the clauses of COPY in two orders; twice TO; an external table *)
Definition ex_to : list token := [K "TO"; Str "s3://b/f"].
Definition ex_stored : list token := [K "STORED"; K "AS"; W "parquet"].
Definition ex_by : list token := [K "PARTITIONED"; K "BY"; LParen; W "a"; Comma; Word "B" true ""; RParen].
Example ex_clauses : Forall2 (writes_clause (fun s => s)) [To "s3://b/f"; Stored "parquet"; PartitionedBy [("a", false); ("B", true)]%string] [ex_to; ex_stored; ex_by] /\
  ex_sql (K "COPY" :: [W "t"] ++ concat [ex_by; ex_to; ex_stored]) = Some [CopyTo (SRelation [("t", false)]%string) "s3://b/f" [("a", false); ("B", true)]%string (Some "parquet"%string) []] /\
  ex_sql (K "COPY" :: [W "t"] ++ concat [ex_to; ex_by; ex_to]) = None.
Proof.
  split; [|vm_compute; auto]. constructor; [eexists _, _; split; [eexists _, _; reflexivity|split; [left; reflexivity|reflexivity]]|].
  constructor; [eexists _, _, _, _, _; split; [eexists _, _; reflexivity|split; [eexists _, _; reflexivity|split; reflexivity]]|].
  constructor; [|constructor]. eexists _, _, _. split; [eexists _, _; reflexivity|]. split; [eexists _, _; reflexivity|]. split; [|reflexivity].
  exists [[W "a"]; [Word "B" true ""]]. split; [|left; reflexivity]. repeat constructor; eexists; reflexivity.
Qed.
Definition sample_location : list token := [K "LOCATION"; Str "http://h/f"].
Definition sample_order : list token := [K "WITH"; K "ORDER"; LParen; W "c"; K "DESC"; K "NULLS"; K "LAST"; RParen].
Definition ex_columns_tokens : list token := parens [[W "c"; W "int"]; [W "d"; W "text"]].
Definition ex_col (n : string) : column := {| cd_name := (n, false); cd_type := 0; cd_collation := None; cd_options := [] |}.
Lemma ex_col_ok n ty : writes_column ex_word ex_nothing (ex_col n) [W n; W ty].
Proof.
  exists ""%string, (W ty), [], [], []. split; [reflexivity|]. split; [discriminate|]. split; [discriminate|]. split; [reflexivity|]. split; [constructor|]. intros t' rest _. reflexivity.
Qed.
Example ex_external : writes_columns ex_word ex_nothing ex_nothing [inl (ex_col "c"); inl (ex_col "d")] ex_columns_tokens /\
  Forall2 (writes_xclause ex_word ex_word ex_nothing ex_nothing (fun s => s)) [XLocation "http://h/f"; XOrder [{| ob_expr := 0; ob_asc := Some false; ob_nulls_first := Some false |}]; XStored "parquet"] [sample_location; sample_order; ex_stored] /\
  ex_sql (K "CREATE" :: [] ++ K "EXTERNAL" :: [] ++ K "TABLE" :: [K "IF"; K "NOT"; K "EXISTS"] ++ [W "t"] ++ ex_columns_tokens ++ concat [sample_location; sample_order; ex_stored]) =
  Some [CreateExternalTable {| ex_name := [("t", false)]%string; ex_columns := [ex_col "c"; ex_col "d"]; ex_file_type := "parquet"; ex_location := "http://h/f"; ex_partitions := [];
    ex_order := [[{| ob_expr := 0; ob_asc := Some false; ob_nulls_first := Some false |}]]; ex_if_not_exists := true; ex_temporary := false; ex_unbounded := false; ex_options := []; ex_constraints := [] |}].
Proof.
  split; [right; exists [[W "c"; W "int"]; [W "d"; W "text"]]; split; [|left; reflexivity]; constructor; [split; [apply ex_col_ok|intros r; reflexivity]|constructor; [split; [apply ex_col_ok|intros r; reflexivity]|constructor]]|].
  split; [|vm_compute; reflexivity].
  constructor; [eexists _, _; split; [eexists _, _; reflexivity|split; [left; reflexivity|reflexivity]]|].
  constructor; [|constructor; [eexists _, _, _, _, _; split; [eexists _, _; reflexivity|split; [eexists _, _; reflexivity|split; reflexivity]]|constructor]].
  split; [discriminate|]. exists (K "WITH"), (K "ORDER"), [[W "c"; K "DESC"; K "NULLS"; K "LAST"]]. split; [eexists _, _; reflexivity|]. split; [eexists _, _; reflexivity|]. split; [|reflexivity].
  constructor; [|constructor]. exists [W "c"], [K "DESC"], [K "NULLS"; K "LAST"]. split; [reflexivity|]. split; [intros t rest _; reflexivity|].
  split; [exists (K "DESC"); split; [eexists _, _; reflexivity|reflexivity]|]. exists (K "NULLS"), (K "LAST"). split; [eexists _, _; reflexivity|]. split; [eexists _, _; reflexivity|reflexivity].
Qed.
(* a column with a collation, a plain and a named option, a constraint of the table, and a comma behind it *)
Definition ex_option : P (option nat) := fun ts =>
  match ts with Word _ _ "NOT" :: Word _ _ "NULL" :: r => Some (Some 7, r) | Word _ _ "UNIQUE" :: r => Some (Some 8, r) | _ => Some (None, ts) end%string.
Definition ex_constraint : P (option nat) := fun ts => match ts with Word _ _ "PRIMARY" :: Word _ _ "KEY" :: r => Some (Some 9, r) | _ => Some (None, ts) end%string.
Definition ex_full_col : column := {| cd_name := ("c", false); cd_type := 0; cd_collation := Some [("utf8", false)]; cd_options := [(None, 7); (Some ("u", false), 8)] |}%string.
Definition ex_full_tokens : list token :=
  LParen :: commas [[W "c"; W "text"; K "COLLATE"; W "utf8"; K "NOT"; K "NULL"; K "CONSTRAINT"; W "u"; K "UNIQUE"]; [K "PRIMARY"; K "KEY"]] ++ [Comma; RParen].
Definition ex_full_sql := parse_sql ex_words ex_words ex_words ex_word ex_word ex_constraint ex_option (fun s => s).
Example ex_external_full : no_option_here ex_option /\ writes_columns ex_word ex_constraint ex_option [inl ex_full_col; inr 9] ex_full_tokens /\
  ex_full_sql (K "CREATE" :: [] ++ K "EXTERNAL" :: [] ++ K "TABLE" :: [] ++ [W "t"] ++ ex_full_tokens ++ concat [ex_stored; sample_location]) =
  Some [CreateExternalTable {| ex_name := [("t", false)]%string; ex_columns := [ex_full_col]; ex_file_type := "parquet"; ex_location := "http://h/f"; ex_partitions := [];
    ex_order := []; ex_if_not_exists := false; ex_temporary := false; ex_unbounded := false; ex_options := []; ex_constraints := [9] |}].
Proof.
  split; [intros t rest [->| ->]; reflexivity|]. split; [|vm_compute; reflexivity]. right. eexists. split; [|right; split; [|reflexivity]; discriminate].
  constructor; [|constructor; [|constructor]].
  - split; [|intros r; reflexivity]. exists ""%string, (W "text"), [], [K "COLLATE"; W "utf8"], [K "NOT"; K "NULL"; K "CONSTRAINT"; W "u"; K "UNIQUE"].
    split; [reflexivity|]. split; [discriminate|]. split; [discriminate|].
    split; [exists (K "COLLATE"), [W "utf8"]; split; [eexists _, _; reflexivity|split; [constructor; left; eexists; reflexivity|reflexivity]]|].
    split; [|intros t' rest _; reflexivity].
    apply (wco_plain ex_option 7 "NOT" false "NOT" [K "NULL"] [(Some ("u", false)%string, 8)] [K "CONSTRAINT"; W "u"; K "UNIQUE"]); [|discriminate|discriminate|intros t rest _; reflexivity].
    apply (wco_named ex_option ("u", false)%string 8 (K "CONSTRAINT") (W "u") [K "UNIQUE"] [] []); [constructor|eexists _, _; reflexivity|left; eexists; reflexivity|intros t rest _; reflexivity].
  - eexists _, _, _, _. split; [reflexivity|]. intros t rest _. reflexivity.
Qed.
Example ex_external_orders : Permutation [ex_stored; sample_order; sample_location] [sample_location; ex_stored; sample_order] /\
  ex_sql (K "CREATE" :: [] ++ K "EXTERNAL" :: [] ++ K "TABLE" :: [] ++ [W "t"] ++ ex_columns_tokens ++ concat [ex_stored; sample_order; sample_location]) =
  ex_sql (K "CREATE" :: [] ++ K "EXTERNAL" :: [] ++ K "TABLE" :: [] ++ [W "t"] ++ ex_columns_tokens ++ concat [sample_location; ex_stored; sample_order]) /\
  ex_sql (K "CREATE" :: [] ++ K "EXTERNAL" :: [] ++ K "TABLE" :: [] ++ [W "t"] ++ ex_columns_tokens ++ concat [ex_stored; sample_order; sample_location]) <> None.
Proof.
  split; [|split; [vm_compute; reflexivity|vm_compute; discriminate]]. apply Permutation_sym. exact (Permutation_app_comm [sample_location] [ex_stored; sample_order]).
Qed.
(* C80, C81 *)
Example ex_replace : ex_sql [K "CREATE"; K "OR"; K "REPLACE"; K "TABLE"; W "t"] = ex_sql [K "CREATE"; K "TABLE"; W "t"] /\ ex_sql [K "CREATE"; K "TABLE"; W "t"] = Some [Native 2].
Proof. vm_compute. auto. Qed.
Example ex_written : written_as (PTruncate [("s", false); ("t", false)]%string) ex_trunc /\ written_as (PVacuum None (Some [("t", false)]%string)) [K "VACUUM"; K "TABLE"; W "t"] /\
  written_as (PConvert "path" [("t", false)]%string) [K "CONVERT"; Str "path"; K "TO"; K "DELTA"; W "t"].
Proof.
  split; [exists (K "TRUNCATE"), (K "TABLE"), [W "s"; Period; W "t"]; repeat split; try (eexists _, _; reflexivity); constructor; [left; eexists; reflexivity|constructor; left; eexists; reflexivity]|].
  split; [exists (K "VACUUM"), (K "TABLE"), [W "t"], [("t", false)]%string; split; [reflexivity|]; split; [eexists _, _; reflexivity|]; split; [constructor; left; eexists; reflexivity|left; split; [eexists _, _; reflexivity|auto]]|].
  exists (K "CONVERT"), (Str "path"), (K "TO"), (K "DELTA"), [W "t"]. split; [reflexivity|]. split; [eexists _, _; reflexivity|]. split; [left; reflexivity|]. split; [eexists _, _; reflexivity|].
  split; [eexists _, _; reflexivity|]. constructor. left. eexists. reflexivity.
Qed.
(* C82: CREATE FUNCTION f can be called, CREATE FUNCTION Add cannot *)
Example ex_names : called_name (fun s => s) [("f", false)]%string = name_string (fun s => s) [("f", false)]%string /\ ~ DdlSpec.lower_case "Add" "Add" /\
  called_name (fun s => s) [("Add", false)]%string = "add"%string /\ name_string (fun s => s) [("Add", false)]%string = "Add"%string /\
  name_string (fun s => s) [("Add", true)]%string = """Add"""%string.
Proof.
  split; [reflexivity|]. split; [|vm_compute; auto]. intros C. apply DdlProofs.lower_case_lower in C. discriminate C.
Qed.
