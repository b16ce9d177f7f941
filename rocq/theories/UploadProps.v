(* C120 (rows of uploaded files), C121 (forms), C122 (refused uploads) and C123 (the limit). Specification: UploadSpec.v, model: UploadModel.v. *)
From Coq Require Import Ascii String List Bool Arith NArith Lia Permutation.
From Verif Require Import UploadModel UploadSpec.
Import ListNotations.
Open Scope list_scope.

Section Uploads.
Variable E : engine.

(* ---- Forms ---- *)
Lemma teqb_eq a b : teqb a b = true <-> a = b.
Proof. unfold teqb. destruct (list_eq_dec ascii_dec a b); split; congruence. Qed.
Lemma teqb_refl a : teqb a a = true.
Proof. apply teqb_eq. reflexivity. Qed.
Definition put (f : form E) (p : part) : option (form E) :=
  match kind_of p with
  | HeaderFlag => if utf8 E (content p) then Some {| has_header := starts_with (s_ "true") (content p); schema := schema E f; file_name := file_name E f; file_type := file_type E f; file := file E f |} else None
  | Schema => if utf8 E (content p) then match read_schema E (content p) with Some s => Some {| has_header := has_header E f; schema := Some s; file_name := file_name E f; file_type := file_type E f; file := file E f |} | None => None end else None
  | File => match filename p with Some (c :: n) => Some {| has_header := has_header E f; schema := schema E f; file_name := c :: n; file_type := extension (c :: n); file := content p |} | _ => None end
  | Unknown => Some f
  end.
Lemma add_put f p : add_part E f p = put f p.
Proof.
  unfold add_part, put, kind_of, teqb, s_. destruct (list_eq_dec ascii_dec (name p) _); [reflexivity|]. destruct (list_eq_dec ascii_dec (name p) _); [reflexivity|]. destruct (list_eq_dec ascii_dec (name p) _); [reflexivity|].
  destruct (list_eq_dec ascii_dec (name p) _); reflexivity.
Qed.
Definition opt_bind {A B} (o : option A) (f : A -> option B) : option B := match o with Some x => f x | None => None end.
Lemma put_comm f p q : (kind_of q = kind_of p -> kind_of p = Unknown) -> opt_bind (put f p) (fun f => put f q) = opt_bind (put f q) (fun f => put f p).
Proof.
  intros H. unfold put. destruct (kind_of p), (kind_of q); try (specialize (H eq_refl); discriminate); cbn [opt_bind];
  repeat match goal with |- context [utf8 E (content ?x)] => destruct (utf8 E (content x)) end; cbn [opt_bind];
  repeat match goal with |- context [read_schema E (content ?x)] => destruct (read_schema E (content x)) end; cbn [opt_bind];
  repeat match goal with |- context [filename ?x] => destruct (filename x) as [[|? ?]|] end; reflexivity.
Qed.
Lemma add_app f l l' : add_parts E f (l ++ l') = opt_bind (add_parts E f l) (fun f => add_parts E f l').
Proof. revert f. induction l as [|p l IH]; intros f; [reflexivity|]. cbn [app add_parts]. destruct (add_part E f p); [apply IH|reflexivity]. Qed.
Lemma one_each_perm l l' : Permutation l l' -> one_each l -> one_each l'.
Proof.
  intros P. induction P as [|p l l' P IH|p q l|l l' l'' P1 IH1 P2 IH2]; cbn [one_each]; intros O.
  - exact Logic.I.
  - destruct O as [O1 O2]. split; [|apply IH; exact O2]. intros q I. apply O1. apply (Permutation_in q (Permutation_sym P)). exact I.
  - destruct O as (Op & Oq & O). split; [|split; [|exact O]].
    + intros x [<-|I] K; [rewrite <- K; apply (Op p); [left; reflexivity|symmetry; exact K]|apply (Oq x I K)].
    + intros x I K. apply (Op x); [right; exact I|exact K].
  - apply IH2, IH1, O.
Qed.
Lemma add_perm l l' : Permutation l l' -> one_each l -> forall f, add_parts E f l = add_parts E f l'.
Proof.
  intros P. induction P as [|p l l' P IH|p q l|l l' l'' P1 IH1 P2 IH2]; intros O f.
  - reflexivity.
  - cbn [add_parts]. destruct (add_part E f p); [apply IH; exact (proj2 O)|reflexivity].
  - cbn [add_parts]. rewrite !add_put. destruct O as (Op & _ & _). assert (C := put_comm f q p).
    specialize (C (fun K => Op p (or_introl eq_refl) K)). unfold opt_bind in C. destruct (put f q) as [fq|] eqn:Q, (put f p) as [fp|] eqn:Pp; rewrite ?add_put; try rewrite C; rewrite <- ?C; try reflexivity.
  - rewrite (IH1 O). apply IH2. exact (one_each_perm _ _ P1 O).
Qed.

(* The order of the parts does not matter *)
Theorem c121_order : forall st l l', Permutation l l' -> one_each l -> upload E st l = upload E st l'.
Proof. intros st l l' P O. unfold upload. rewrite (add_perm l l' P O). reflexivity. Qed.
(* Without a flag the file has a header *)
Theorem c121_default : sane E -> forall st l, upload E st (header_part (flag true) :: l) = upload E st l.
Proof.
  intros Sa st l. unfold upload. cbn [add_parts]. rewrite add_put. unfold put, kind_of, header_part. cbn [name content]. destruct (list_eq_dec ascii_dec _ _) as [_|N]; [|contradiction]. rewrite (Sa true). reflexivity.
Qed.
(* Of several files only the last one is appended, and the answer names only that one *)
Lemma file_wins f p l q : kind_of p = File -> kind_of q = File -> put f p <> None -> add_parts E f (p :: l ++ [q]) = add_parts E f (l ++ [q]).
Proof.
  intros K Q N. cbn [add_parts]. rewrite add_put. assert (X : exists n t b, put f p = Some {| has_header := has_header E f; schema := schema E f; file_name := n; file_type := t; file := b |}).
  { unfold put in *. rewrite K in *. destruct (filename p) as [[|c n]|]; try contradiction. eauto. }
  destruct X as (n & t & b & ->). clear N K p. revert f n t b. induction l as [|x l IH]; intros f n t b.
  - cbn [app add_parts]. rewrite !add_put. unfold put. rewrite Q. destruct (filename q) as [[|c m]|]; reflexivity.
  - cbn [app add_parts]. rewrite !add_put. unfold put. destruct (kind_of x).
    + destruct (utf8 E (content x)); [|reflexivity]. exact (IH {| has_header := starts_with (s_ "true") (content x); schema := schema E f; file_name := file_name E f; file_type := file_type E f; file := file E f |} n t b).
    + destruct (utf8 E (content x)); [|reflexivity]. destruct (read_schema E (content x)) as [s|]; [|reflexivity].
      exact (IH {| has_header := has_header E f; schema := Some s; file_name := file_name E f; file_type := file_type E f; file := file E f |} n t b).
    + destruct (filename x) as [[|c m]|]; reflexivity.
    + apply (IH f n t b).
Qed.
Theorem c121_two_files_refuted : forall st l1 l2 l3 n n' b b', n <> [] ->
  upload E st (l1 ++ file_part n b :: l2 ++ file_part n' b' :: l3) = upload E st (l1 ++ l2 ++ file_part n' b' :: l3).
Proof.
  intros st l1 l2 l3 n n' b b' N. unfold upload. rewrite !add_app. destruct (add_parts E (empty_form E) l1) as [f|]; [|reflexivity]. cbn [opt_bind].
  assert (X : add_parts E f (file_part n b :: l2 ++ file_part n' b' :: l3) = add_parts E f (l2 ++ file_part n' b' :: l3)); [|rewrite X; reflexivity].
  assert (Y : l2 ++ file_part n' b' :: l3 = (l2 ++ [file_part n' b']) ++ l3) by (rewrite <- app_assoc; reflexivity). rewrite Y, app_comm_cons, (add_app f (file_part n b :: l2 ++ [file_part n' b'])), (add_app f (l2 ++ [file_part n' b'])).
  rewrite (file_wins f (file_part n b) l2 (file_part n' b')); [reflexivity|reflexivity|reflexivity|]. destruct n as [|c n]; [contradiction|]. discriminate.
Qed.
(* A flag that does not begin with "true" in small letters says that there is no header *)
Theorem c121_flag_refuted : sane E -> forall st l1 l2 t, utf8 E t = true -> (forall r, t <> list_ascii_of_string "true" ++ r) -> upload E st (l1 ++ header_part t :: l2) = upload E st (l1 ++ header_part (flag false) :: l2).
Proof.
  intros Sa st l1 l2 t U N. unfold upload. rewrite !add_app. destruct (add_parts E (empty_form E) l1) as [f|]; [|reflexivity]. cbn [opt_bind add_parts]. rewrite !add_put. unfold put, kind_of, header_part. cbn [name content].
  destruct (list_eq_dec ascii_dec _ _) as [_|C]; [|contradiction]. rewrite U, (Sa false). assert (X : starts_with (s_ "true") t = false); [|rewrite X; reflexivity].
  destruct (starts_with (s_ "true") t) eqn:S; [|reflexivity]. exfalso. cbn [s_ list_ascii_of_string starts_with] in S.
  destruct t as [|a [|b [|c [|d r]]]]; repeat (rewrite ?andb_false_r in S; try discriminate S). rewrite !andb_true_iff in S. destruct S as (A & B & C & D & _). apply Ascii.eqb_eq in A, B, C, D. subst. exact (N r eq_refl).
Qed.
(* Parts with other names are ignored, so that a misspelt one has no effect *)
Theorem c121_unknown_refuted : forall st l1 l2 p, kind_of p = Unknown -> upload E st (l1 ++ p :: l2) = upload E st (l1 ++ l2).
Proof. intros st l1 l2 p K. unfold upload. rewrite !add_app. destruct (add_parts E (empty_form E) l1) as [f|]; [|reflexivity]. cbn [opt_bind add_parts]. rewrite add_put. unfold put. rewrite K. reflexivity. Qed.
(* If the table exists, the schema of the form is ignored *)
Lemma given_irrelevant st csv g g' h b : exists_table E st -> file_to_table E st csv g h b = file_to_table E st csv g' h b.
Proof. intros [S T]. unfold file_to_table. rewrite S. cbn [table]. destruct (table E st) as [[cs rows]|]; [reflexivity|contradiction]. Qed.
Definition same_but_schema (f f' : form E) : Prop := has_header E f = has_header E f' /\ file_name E f = file_name E f' /\ file_type E f = file_type E f' /\ file E f = file E f'.
Lemma add_same l : forall f f', same_but_schema f f' -> match add_parts E f l, add_parts E f' l with Some g, Some g' => same_but_schema g g' | None, None => True | _, _ => False end.
Proof.
  induction l as [|p l IH]; intros f f' S; [exact S|]. cbn [add_parts]. rewrite !add_put. destruct S as (A & B & C & D). unfold put. destruct (kind_of p).
  - destruct (utf8 E (content p)); [|exact Logic.I]. apply IH. repeat split; assumption.
  - destruct (utf8 E (content p)); [|exact Logic.I]. destruct (read_schema E (content p)); [|exact Logic.I]. apply IH. repeat split; assumption.
  - destruct (filename p) as [[|c n]|]; try exact Logic.I. apply IH. repeat split; assumption.
  - apply IH. repeat split; assumption.
Qed.
Theorem c121_schema_refuted : forall st l1 l2 s, exists_table E st -> utf8 E s = true -> read_schema E s <> None -> upload E st (l1 ++ schema_part s :: l2) = upload E st (l1 ++ l2).
Proof.
  intros st l1 l2 s X U R. unfold upload. rewrite !add_app. destruct (add_parts E (empty_form E) l1) as [f|]; [|reflexivity]. cbn [opt_bind add_parts]. rewrite add_put. unfold put, kind_of, schema_part. cbn [name content].
  destruct (list_eq_dec ascii_dec _ _) as [C|_]; [discriminate|]. destruct (list_eq_dec ascii_dec _ _) as [_|C]; [|contradiction]. rewrite U. destruct (read_schema E s) as [cs|]; [|contradiction].
  pose proof (add_same l2 {| has_header := has_header E f; schema := Some cs; file_name := file_name E f; file_type := file_type E f; file := file E f |} f ltac:(repeat split)) as S.
  destruct (add_parts E _ l2) as [g|], (add_parts E f l2) as [g'|]; try contradiction; [|reflexivity]. destruct S as (A & B & C & D). rewrite A, B, C, D. rewrite (given_irrelevant st _ (schema E g) (schema E g')) by exact X. reflexivity.
Qed.

(* ---- Rows ---- *)
Lemma extension_dot base ext : ~ In "."%char ext -> extension (base ++ "."%char :: ext) = ext.
Proof.
  intros N. assert (X : existsb (Ascii.eqb ".") ext = false) by (destruct (existsb (Ascii.eqb ".") ext) eqn:Q; [apply existsb_exists in Q as (c & I & C); apply Ascii.eqb_eq in C; subst c; contradiction|reflexivity]).
  induction base as [|c base IH]; cbn [app extension]; [rewrite X; reflexivity|]. rewrite IH. assert (Y : existsb (Ascii.eqb ".") (base ++ "."%char :: ext) = true) by (apply existsb_exists; exists "."%char; split; [apply in_or_app; right; left; reflexivity|reflexivity]). rewrite Y. reflexivity.
Qed.
Lemma extension_csv base f : named base "csv" f -> extension f = s_ "csv".
Proof. intros ->. apply extension_dot. cbn. intros I. repeat (destruct I as [I|I]; [discriminate|]). exact I. Qed.
Lemma extension_parquet base f : named base "parquet" f -> extension f = s_ "parquet".
Proof. intros ->. apply extension_dot. cbn. intros I. repeat (destruct I as [I|I]; [discriminate|]). exact I. Qed.
Lemma named_some base ext f : named base ext f -> f <> [].
Proof. intros ->. destruct base; discriminate. Qed.
Lemma add_request h s f b : sane E -> f <> [] -> add_parts E (empty_form E) (request h s f b) = match given_of E s with Some g => Some {| has_header := h; schema := g; file_name := f; file_type := extension f; file := b |} | None => None end.
Proof.
  intros Sa Nf. unfold request. destruct f as [|c f]; [contradiction|]. cbn [add_parts]. rewrite add_put. unfold put at 1, kind_of at 1, header_part at 1. cbn [name content header_part]. destruct (list_eq_dec ascii_dec _ _) as [_|C]; [|contradiction]. rewrite (Sa h).
  assert (H : starts_with (s_ "true") (flag h) = h) by (destruct h; reflexivity). rewrite H. destruct s as [s|]; cbn [app add_parts given_of].
  - rewrite add_put. unfold put at 1. change (kind_of (schema_part s)) with Schema. cbv iota. cbn [content schema_part]. destruct (utf8 E s); [|reflexivity]. destruct (read_schema E s) as [cs|]; [|reflexivity]. rewrite add_put. reflexivity.
  - rewrite add_put. reflexivity.
Qed.
Lemma upload_request st h s f b g (csv : bool) : sane E -> f <> [] -> given_of E s = Some g -> extension f = (if csv then s_ "csv" else s_ "parquet") ->
  upload E st (request h s f b) = match file_to_table E st csv g h b with (st', Some _) => (st', Appended f) | (st', None) => (st', Refused) end.
Proof.
  intros Sa Nf G X. unfold upload. rewrite (add_request h s f b Sa Nf), G. cbn [file_type schema has_header file file_name]. rewrite X. destruct csv; reflexivity.
Qed.
Lemma all_some_spec {A B} (f : A -> option B) l r : all_some f l = Some r <-> Forall2 (fun x y => f x = Some y) l r.
Proof.
  revert r. induction l as [|x l IH]; intros r; cbn [all_some].
  - split; [intros [= <-]; constructor|intros F; inversion F; reflexivity].
  - split.
    + intros H. destruct (f x) eqn:Q; [|discriminate]. destruct (all_some f l) eqn:AS; [|discriminate]. injection H as <-. constructor; [exact Q|apply IH; reflexivity].
    + intros F. inversion F as [|? y ? r' Q F']; subst. apply IH in F'. rewrite Q, F'. reflexivity.
Qed.
Lemma csv_row_spec cs rec r : csv_row E cs rec = Some r <-> record_means E cs rec r.
Proof.
  revert rec r. induction cs as [|[n t] cs IH]; intros rec r.
  - split.
    + intros H. destruct rec; [|discriminate]. cbn in H. injection H as <-. split; [reflexivity|]. split; [reflexivity|]. intros [|i] n t x C; discriminate C.
    + intros (L & L' & _). destruct rec; [|discriminate]. destruct r; [|discriminate]. reflexivity.
  - split.
    + intros H. destruct rec as [|[|a x] rec]; cbn [csv_row] in H; [discriminate| |].
      * destruct (csv_row E cs rec) as [l|] eqn:Q; [|discriminate]. injection H as <-. apply IH in Q as (L & L' & F). split; [cbn; lia|]. split; [cbn; lia|]. intros [|i] m u y C R; cbn in *; [|exact (F i m u y C R)].
        injection C as <- <-. injection R as <-. exists None. split; [reflexivity|constructor].
      * destruct (parse E t (a :: x)) as [v|] eqn:P; [|discriminate]. destruct (csv_row E cs rec) as [l|] eqn:Q; [|discriminate]. injection H as <-. apply IH in Q as (L & L' & F). split; [cbn; lia|]. split; [cbn; lia|].
        intros [|i] m u y C R; cbn in *; [|exact (F i m u y C R)]. injection C as <- <-. injection R as <-. exists (Some v). split; [reflexivity|constructor; [discriminate|exact P]].
    + intros (L & L' & F). destruct rec as [|x rec]; [discriminate|]. destruct r as [|v r]; [discriminate|]. cbn in L, L'.
      assert (Q : csv_row E cs rec = Some r) by (apply IH; split; [lia|]; split; [lia|]; intros i m u y C R; exact (F (S i) m u y C R)).
      destruct (F 0 n t x eq_refl eq_refl) as (w & W & M). cbn in W. injection W as <-. destruct M as [|x v Nx P]; cbn [csv_row]; [rewrite Q; reflexivity|]. destruct x as [|a x]; [contradiction|]. rewrite P, Q. reflexivity.
Qed.
Definition data_records (h : bool) (b : list ascii) : list (list (list ascii)) := if h then tl (records E b) else records E b.
Lemma csv_rows_spec cs h b rows : csv_rows E cs h b = Some rows <-> Forall2 (record_means E cs) (data_records h b) rows.
Proof.
  unfold csv_rows. rewrite all_some_spec. unfold data_records. split; intros F; (induction F as [|x y l l' X F IH]; constructor; [apply csv_row_spec; exact X|exact IH]).
Qed.
Lemma file_cases st csv g h b cs : target E st g = Some cs -> (exists_table E st \/ supported E cs = true) ->
  file_to_table E st csv g h b = match (if csv then csv_rows E cs h b else parquet_rows E cs b) with
    | Some rows => ({| has_schema := true; table := Some (cs, old_rows E st ++ rows) |}, Some rows)
    | None => ({| has_schema := true; table := Some (cs, old_rows E st) |}, None) end.
Proof.
  intros T X. unfold file_to_table, target, old_rows in *. destruct (has_schema E st) eqn:S; cbn [table].
  - destruct (table E st) as [[cs' rows]|] eqn:Q.
    + injection T as ->. cbn [snd]. destruct (if csv then csv_rows E cs h b else parquet_rows E cs b); reflexivity.
    + subst g. destruct X as [[_ N]|X]; [rewrite Q in N; contradiction|]. rewrite X. cbn [snd]. destruct (if csv then csv_rows E cs h b else parquet_rows E cs b); reflexivity.
  - subst g. destruct X as [[N _]|X]; [congruence|]. rewrite X. cbn [snd]. destruct (if csv then csv_rows E cs h b else parquet_rows E cs b); reflexivity.
Qed.

(* A CSV file is appended exactly if all of its records fit the columns of the table (or those that were given, for a new table), by their order; then its rows come after those of the table, in order *)
Theorem c120_csv : sane E -> forall st (h : bool) s g base f b cs, named base "csv" f -> given_of E s = Some g -> target E st g = Some cs -> (exists_table E st \/ supported E cs = true) ->
  (forall rows, Forall2 (record_means E cs) (if h then tl (records E b) else records E b) rows -> upload E st (request h s f b) = ({| has_schema := true; table := Some (cs, old_rows E st ++ rows) |}, Appended f)) /\
  ((forall rows, ~ Forall2 (record_means E cs) (if h then tl (records E b) else records E b) rows) -> snd (upload E st (request h s f b)) = Refused).
Proof.
  intros Sa st h s g base f b cs N G T X. rewrite (upload_request st h s f b g true Sa (named_some _ _ _ N) G (extension_csv _ _ N)), (file_cases st true g h b cs T X). split.
  - intros rows F. apply csv_rows_spec in F. rewrite F. reflexivity.
  - intros F. destruct (csv_rows E cs h b) as [rows|] eqn:Q; [|reflexivity]. apply csv_rows_spec in Q. exfalso. exact (F rows Q).
Qed.
Lemma under_nth {A} names (r : list A) n x i : NoDup names -> nth_error names i = Some n -> nth_error r i = Some x -> under names r n = Some x.
Proof.
  revert r i. induction names as [|m names IH]; intros r i D C R; [destruct i; discriminate|]. destruct r as [|y r]; [destruct i; discriminate|]. inversion_clear D as [|? ? M D']. cbn [under]. destruct i as [|i]; cbn in C, R.
  - injection C as ->. injection R as ->. destruct (list_eq_dec ascii_dec n n); [reflexivity|contradiction].
  - destruct (list_eq_dec ascii_dec m n) as [->|]; [exfalso; apply M; apply nth_error_In in C; exact C|exact (IH r i D' C R)].
Qed.
(* If the header of the file lists the columns of the table in their order, each value of the table is the one under its name in the file *)
Theorem c120_header_partial : sane E -> forall st s g base f b cs header recs rows, named base "csv" f -> given_of E s = Some g -> target E st g = Some cs -> (exists_table E st \/ supported E cs = true) ->
  records E b = header :: recs -> header = map fst cs -> NoDup header -> Forall2 (record_means E cs) recs rows ->
  exists new, upload E st (request true s f b) = ({| has_schema := true; table := Some (cs, old_rows E st ++ new) |}, Appended f) /\
    Forall2 (fun rec r => forall n t, In (n, t) cs -> exists x v, under header rec n = Some x /\ under (map fst cs) r n = Some v /\ cell_means E t x v) recs new.
Proof.
  intros Sa st s g base f b cs header recs rows N G T X R H D F. exists rows. split.
  - apply (proj1 (c120_csv Sa st true s g base f b cs N G T X)). rewrite R. exact F.
  - clear R. subst header. induction F as [|rec r recs rows (L & L' & M) F IH]; constructor; [|exact IH]. intros n t I. apply In_nth_error in I as (i & I).
    assert (K : nth_error (map fst cs) i = Some n) by (rewrite nth_error_map, I; reflexivity). assert (B : i < length cs) by (apply nth_error_Some; congruence).
    destruct (nth_error rec i) as [x|] eqn:Y; [|apply nth_error_None in Y; lia]. destruct (M i n t x I Y) as (v & V & W). exists x, v. split; [exact (under_nth _ rec n x i D K Y)|]. split; [exact (under_nth _ r n v i D K V)|exact W].
Qed.
(* The names in the header make no difference: a file with the columns in another order, or with other columns, ends up in the wrong ones *)
Theorem c120_header_refuted : sane E -> forall st s g base f b b' cs h h' recs, named base "csv" f -> given_of E s = Some g -> target E st g = Some cs -> (exists_table E st \/ supported E cs = true) ->
  records E b = h :: recs -> records E b' = h' :: recs -> upload E st (request true s f b) = upload E st (request true s f b').
Proof.
  intros Sa st s g base f b b' cs h h' recs N G T X R R'. rewrite !(upload_request st true s f _ g true Sa (named_some _ _ _ N) G (extension_csv _ _ N)), !(file_cases st true g true _ cs T X). unfold csv_rows. rewrite R, R'. reflexivity.
Qed.
(* An empty text is stored as null *)
Theorem c120_empty_refuted : forall cs rec r i n t, record_means E cs rec r -> nth_error cs i = Some (n, t) -> nth_error rec i = Some [] -> nth_error r i = Some None.
Proof. intros cs rec r i n t (_ & _ & M) C R. destruct (M i n t [] C R) as (v & V & W). inversion W; subst; [exact V|contradiction]. Qed.

(* Parquet: values are found under the names of their columns, in any order *)
Lemma find_under n fcs r : length r = length fcs -> forall v, under (map fst fcs) r n = Some v -> exists t, find_column E n fcs r = Some (t, v).
Proof.
  revert r. induction fcs as [|[m t] fcs IH]; intros r L v U; [discriminate|]. destruct r as [|w r]; [discriminate|]. cbn [map fst under find_column] in *. unfold teqb. destruct (list_eq_dec ascii_dec m n); [injection U as <-; eauto|]. apply IH; [cbn in L; lia|exact U].
Qed.
Lemma find_absent n fcs r : ~ In n (map fst fcs) -> find_column E n fcs r = None.
Proof.
  revert r. induction fcs as [|[m t] fcs IH]; intros r N; [reflexivity|]. destruct r as [|w r]; [reflexivity|]. cbn [map fst In find_column] in *. unfold teqb. destruct (list_eq_dec ascii_dec m n); [tauto|]. apply IH. tauto.
Qed.
Lemma under_map {A B} (k : A -> list ascii) (g : A -> B) l n a : NoDup (map k l) -> In a l -> k a = n -> under (map k l) (map g l) n = Some (g a).
Proof.
  intros D I K. induction l as [|x l IH]; [destruct I|]. cbn [map under]. cbn [map] in D. inversion_clear D as [|? ? X D']. destruct I as [->|I].
  - rewrite K. destruct (list_eq_dec ascii_dec n n); [reflexivity|contradiction].
  - destruct (list_eq_dec ascii_dec (k x) n) as [Q|]; [|exact (IH D' I)]. exfalso. apply X. rewrite Q, <- K. apply in_map. exact I.
Qed.
Lemma parquet_upload st h s g base f b cs fcs rows : sane E -> named base "parquet" f -> given_of E s = Some g -> target E st g = Some cs -> (exists_table E st \/ supported E cs = true) ->
  parquet E b = Some (fcs, rows) -> compatible E fcs cs = true ->
  upload E st (request h s f b) = ({| has_schema := true; table := Some (cs, old_rows E st ++ map (fun r => map (parquet_cell E fcs r) cs) rows) |}, Appended f).
Proof.
  intros Sa N G T X P C. rewrite (upload_request st h s f b g false Sa (named_some _ _ _ N) G (extension_parquet _ _ N)), (file_cases st false g h b cs T X). unfold parquet_rows. rewrite P, C. reflexivity.
Qed.
Lemma fit_compatible fcs cs : types_fit E fcs cs -> compatible E fcs cs = true.
Proof.
  intros F. unfold compatible. apply forallb_forall. intros [n t] I. cbn [fst snd]. destruct (find (fun d => teqb (fst d) n) fcs) as [[m u]|] eqn:Q; [|reflexivity].
  apply find_some in Q as [J Q]. cbn [fst] in Q. apply teqb_eq in Q. subst m. exact (F n t u I J).
Qed.
Theorem c120_parquet_partial : sane E -> forall st (h : bool) s g base f b cs fcs rows, named base "parquet" f -> given_of E s = Some g -> target E st g = Some cs -> (exists_table E st \/ supported E cs = true) ->
  parquet E b = Some (fcs, rows) -> types_fit E fcs cs -> NoDup (map fst cs) ->
  exists new, upload E st (request h s f b) = ({| has_schema := true; table := Some (cs, old_rows E st ++ new) |}, Appended f) /\
    Forall2 (fun r r' => length r = length fcs -> forall n t v, In (n, t) cs -> under (map fst fcs) r n = Some v -> exists v', under (map fst cs) r' n = Some v' /\
      match v with None => v' = None | Some w => forall w', cast E t w = Some w' -> v' = Some w' end) rows new.
Proof.
  intros Sa st h s g base f b cs fcs rows N G T X P C0 D. exists (map (fun r => map (parquet_cell E fcs r) cs) rows). pose proof (fit_compatible _ _ C0) as C; split; [eapply parquet_upload; eassumption|]. clear P C C0. induction rows as [|r rows IH]; [constructor|]. cbn [map]. constructor; [|exact IH].
  intros L n t v I U. exists (parquet_cell E fcs r (n, t)). split; [exact (under_map fst (parquet_cell E fcs r) cs n (n, t) D I eq_refl)|]. destruct (find_under n fcs r L v U) as (u & F). unfold parquet_cell. cbn [fst snd]. rewrite F. destruct v; [intros w' W; exact W|reflexivity].
Qed.
(* ... but a file without a column of the table is not refused: the column is null in all of its rows *)
Theorem c120_missing_refuted : sane E -> forall st (h : bool) s g base f b cs fcs rows n t, named base "parquet" f -> given_of E s = Some g -> target E st g = Some cs -> (exists_table E st \/ supported E cs = true) ->
  parquet E b = Some (fcs, rows) -> types_fit E fcs cs -> NoDup (map fst cs) -> In (n, t) cs -> ~ In n (map fst fcs) ->
  exists new, upload E st (request h s f b) = ({| has_schema := true; table := Some (cs, old_rows E st ++ new) |}, Appended f) /\ length new = length rows /\ Forall (fun r' => under (map fst cs) r' n = Some None) new.
Proof.
  intros Sa st h s g base f b cs fcs rows n t N G T X P C0 D I A. exists (map (fun r => map (parquet_cell E fcs r) cs) rows). pose proof (fit_compatible _ _ C0) as C; split; [eapply parquet_upload; eassumption|]. split; [apply map_length|]. apply Forall_forall. intros r' J. apply in_map_iff in J as (r & <- & _).
  rewrite (under_map fst (parquet_cell E fcs r) cs n (n, t) D I eq_refl). unfold parquet_cell. cbn [fst]. rewrite (find_absent n fcs r A). reflexivity.
Qed.
(* ... a value that does not fit the column is not refused either, it is null as well *)
Theorem c120_unfit_refuted : sane E -> forall st (h : bool) s g base f b cs fcs rows n t, named base "parquet" f -> given_of E s = Some g -> target E st g = Some cs -> (exists_table E st \/ supported E cs = true) ->
  parquet E b = Some (fcs, rows) -> types_fit E fcs cs -> NoDup (map fst cs) -> In (n, t) cs ->
  exists new, upload E st (request h s f b) = ({| has_schema := true; table := Some (cs, old_rows E st ++ new) |}, Appended f) /\
    Forall2 (fun r r' => length r = length fcs -> forall w, under (map fst fcs) r n = Some (Some w) -> cast E t w = None -> under (map fst cs) r' n = Some None) rows new.
Proof.
  intros Sa st h s g base f b cs fcs rows n t N G T X P C0 D I. exists (map (fun r => map (parquet_cell E fcs r) cs) rows). pose proof (fit_compatible _ _ C0) as C; split; [eapply parquet_upload; eassumption|]. clear P C C0. induction rows as [|r rows IH]; [constructor|]. cbn [map]. constructor; [|exact IH].
  intros L w U W. rewrite (under_map fst (parquet_cell E fcs r) cs n (n, t) D I eq_refl). destruct (find_under n fcs r L _ U) as (u & F). unfold parquet_cell. cbn [fst snd]. rewrite F, W. reflexivity.
Qed.
(* ... and columns that the table does not have are left out: files that differ only in them are the same *)
Theorem c120_extra_refuted : sane E -> forall st (h : bool) s g base f b b' cs fcs rows rows' extra, named base "parquet" f -> given_of E s = Some g -> target E st g = Some cs -> (exists_table E st \/ supported E cs = true) ->
  (forall n, In n (map fst extra) -> ~ In n (map fst cs)) -> parquet E b = Some (fcs, rows) -> parquet E b' = Some (fcs ++ extra, rows') ->
  Forall2 (fun r r' => length r = length fcs /\ exists more, r' = r ++ more) rows rows' ->
  upload E st (request h s f b') = upload E st (request h s f b).
Proof.
  intros Sa st h s g base f b b' cs fcs rows rows' extra N G T X D P P' F. rewrite !(upload_request st h s f _ g false Sa (named_some _ _ _ N) G (extension_parquet _ _ N)), !(file_cases st false g h _ cs T X). unfold parquet_rows. rewrite P, P'.
  assert (K : compatible E (fcs ++ extra) cs = compatible E fcs cs).
  { unfold compatible. clear - D. assert (G : forall c, In c cs -> find (fun d => teqb (fst d) (fst c)) (fcs ++ extra) = find (fun d => teqb (fst d) (fst c)) fcs).
    { intros c I. induction fcs as [|d fcs IH]; cbn [app find]; [|destruct (teqb (fst d) (fst c)); [reflexivity|exact IH]].
      destruct (find (fun d => teqb (fst d) (fst c)) extra) as [d|] eqn:Q; [|reflexivity]. apply find_some in Q as [J Q]. apply teqb_eq in Q. exfalso. apply (D (fst d)); [apply in_map; exact J|rewrite Q; apply in_map; exact I]. }
    clear D. induction cs as [|c cs IH]; [reflexivity|]. cbn [forallb]. rewrite (G c (or_introl eq_refl)), IH by (intros d I; apply G; right; exact I). reflexivity. }
  rewrite K. destruct (compatible E fcs cs); [|reflexivity].
  assert (R : map (fun r => map (parquet_cell E (fcs ++ extra) r) cs) rows' = map (fun r => map (parquet_cell E fcs r) cs) rows).
  { clear P P' K. induction F as [|r r' rows rows' [L (more & ->)] F IH]; [reflexivity|]. cbn [map]. rewrite IH. f_equal. apply map_ext_in. intros c I. unfold parquet_cell.
    assert (Y : find_column E (fst c) (fcs ++ extra) (r ++ more) = find_column E (fst c) fcs r); [|rewrite Y; reflexivity]. clear IH F. revert r L. induction fcs as [|[m u] fcs IH]; intros r L; destruct r as [|w r]; try discriminate L; cbn [app find_column].
    - apply find_absent. intros J. exact (D _ J (in_map fst _ _ I)).
    - destruct (teqb m (fst c)); [reflexivity|]. apply IH. cbn in L. lia. }
  rewrite R. reflexivity.
Qed.

(* ---- C122 ---- *)
(* An upload to a table that exists, if it is refused, changes nothing *)
Theorem c122_partial : forall st parts st', exists_table E st -> upload E st parts = (st', Refused) -> st' = st.
Proof.
  intros st parts st' [S T] H. unfold upload in H. destruct (add_parts E (empty_form E) parts) as [f|]; [|injection H as <-; reflexivity]. destruct (teqb (file_type E f) (s_ "csv") || teqb (file_type E f) (s_ "parquet"))%bool; [|injection H as <-; reflexivity].
  unfold file_to_table in H. rewrite S in H. cbn [table] in H. destruct (table E st) as [[cs rows]|] eqn:Q; [|contradiction]. destruct (if teqb (file_type E f) (s_ "csv") then _ else _); [discriminate H|]. injection H as <-. destruct st as [b t]. cbn in *. subst. reflexivity.
Qed.
(* So does one whose form cannot be read or whose file is neither CSV nor Parquet *)
Theorem c122_form : forall st parts, (add_parts E (empty_form E) parts = None \/ exists f, add_parts E (empty_form E) parts = Some f /\ file_type E f <> list_ascii_of_string "csv" /\ file_type E f <> list_ascii_of_string "parquet") -> upload E st parts = (st, Refused).
Proof.
  intros st parts [H|(f & H & C & P)]; unfold upload; rewrite H; [reflexivity|]. unfold teqb, s_. destruct (list_eq_dec ascii_dec _ _); [contradiction|]. destruct (list_eq_dec ascii_dec _ _); [contradiction|]. reflexivity.
Qed.
(* But a file that does not fit leaves an empty table behind, if there was none *)
Theorem c122_empty_refuted : sane E -> forall st (h : bool) s base f b cs, named base "csv" f -> (has_schema E st = false \/ table E st = None) ->
  match given_of E s with Some (Some g) => cs = g | Some None => cs = infer_csv E (firstn (if h then 1001 else 1000) (records E b)) | None => False end -> supported E cs = true ->
  (forall rows, ~ Forall2 (record_means E cs) (if h then tl (records E b) else records E b) rows) ->
  upload E st (request h s f b) = ({| has_schema := true; table := Some (cs, []) |}, Refused).
Proof.
  intros Sa st h s base f b cs N T C Su F. destruct (given_of E s) as [g|] eqn:G; [|contradiction]. rewrite (upload_request st h s f b g true Sa (named_some _ _ _ N) G (extension_csv _ _ N)).
  assert (Q : csv_rows E cs h b = None) by (destruct (csv_rows E cs h b) as [rows|] eqn:Q; [apply csv_rows_spec in Q; exfalso; exact (F rows Q)|reflexivity]).
  unfold file_to_table. assert (K : (if has_schema E st then table E st else None) = None) by (destruct T as [->| ->]; [reflexivity|destruct (has_schema E st); reflexivity]). rewrite K. cbn [table].
  assert (Y : (match g with Some cs => Some cs | None => infer E true h b end) = Some cs). { destruct g as [g|]; [rewrite C; reflexivity|]. unfold infer. rewrite C. destruct h; reflexivity. }
  rewrite Y. rewrite Su. cbn [snd]. rewrite Q. reflexivity.
Qed.
(* ... a single record beyond the sample is enough *)
Theorem c122_sample_refuted : sane E -> forall st base f b recs rec more, named base "csv" f -> (has_schema E st = false \/ table E st = None) ->
  length recs = 1000 -> records E b = recs ++ rec :: more -> let cs := infer_csv E recs in supported E cs = true -> (forall r, ~ record_means E cs rec r) ->
  upload E st (request false None f b) = ({| has_schema := true; table := Some (cs, []) |}, Refused).
Proof.
  intros Sa st base f b recs rec more N T L R cs Su F. apply (c122_empty_refuted Sa st false None base f b cs N T); [|exact Su|].
  - cbn [given_of]. unfold cs. rewrite R, firstn_app, L, Nat.sub_diag, firstn_O, app_nil_r, <- L, firstn_all. reflexivity.
  - intros rows H. cbn iota in H. rewrite R in H. apply Forall2_app_inv_l in H as (r1 & r2 & _ & H & _). inversion H as [|? r ? ? X]; subst. exact (F r X).
Qed.
(* ... after which the file with the right columns is refused as well *)
Theorem c122_stuck_refuted : sane E -> forall cs base f b (h : bool) rec recs, named base "csv" f -> (if h then tl (records E b) else records E b) = rec :: recs -> length rec <> length cs ->
  snd (upload E {| has_schema := true; table := Some (cs, []) |} (request h None f b)) = Refused.
Proof.
  intros Sa cs base f b h rec recs N R L. assert (X : exists_table E {| has_schema := true; table := Some (cs, []) |}) by (split; [reflexivity|discriminate]).
  destruct (c120_csv Sa {| has_schema := true; table := Some (cs, []) |} h None None base f b cs N eq_refl eq_refl (or_introl X)) as [_ H]. apply H.
  rewrite R. intros rows F. inversion F as [|? r ? ? (Y & _)]; subst. contradiction.
Qed.
End Uploads.

(* ---- C123 ---- *)
Theorem c123_partial : forall setting size, (setting < 2 ^ 44)%N -> accepts setting size = true <-> (size <= setting * 1024 * 1024)%N.
Proof.
  intros setting size H. unfold accepts, limit. rewrite N.mod_small by (change (2 ^ 64)%N with (2 ^ 44 * 1048576)%N; apply N.mul_lt_mono_pos_r; [reflexivity|exact H]). rewrite N.leb_le. lia.
Qed.
Theorem c123_refuted : forall k size, (0 < size)%N -> accepts (k * 2 ^ 44) size = false.
Proof.
  intros k size H. unfold accepts, limit. replace (k * 2 ^ 44 * 1048576)%N with (k * 2 ^ 64)%N by (change (2 ^ 64)%N with (2 ^ 44 * 1048576)%N; lia). rewrite N.mod_mul by discriminate. apply N.leb_gt. exact H.
Qed.

(* ---- Concrete cases: integers (true) of at most three digits and texts (false), files with one record per line ---- *)
Definition digit (c : ascii) : bool := (Nat.leb 48 (nat_of_ascii c) && Nat.leb (nat_of_ascii c) 57)%bool.
Fixpoint cut (sep : ascii) (t : list ascii) : list (list ascii) := match t with [] => [[]] | c :: r => if Ascii.eqb c sep then [] :: cut sep r else match cut sep r with x :: l => (c :: x) :: l | [] => [[c]] end end.
Definition toy : engine := {| ty := bool; val := list ascii; parse := fun t x => if t then if forallb digit x then Some x else None else Some x; castable := fun _ _ => true; cast := fun t v => if (t && Nat.ltb 3 (length v))%bool then None else Some v;
  utf8 := fun _ => true; read_schema := fun t => Some (map (fun n => (n, true)) (cut "," t)); records := fun b => map (cut ",") (cut ";" b);
  infer_csv := fun l => match l with h :: r :: _ => map (fun p => (fst p, forallb digit (snd p))) (combine h r) | _ => [] end;
  parquet := fun b => match cut ";" b with h :: l => Some (map (fun n => (n, true)) (cut "," h), map (fun r => map (fun x => Some x) (cut "," r)) l) | [] => None end; supported := fun _ => true |}.
Example ex_sane : sane toy.
Proof. intros b. reflexivity. Qed.
Definition with_table (b : bool) (t : option (list (list ascii * bool) * list (list (option (list ascii))))) : state toy := Build_state toy b t.
Definition two : state toy := with_table true (Some ([(s_ "a", true); (s_ "b", true)], [[Some (s_ "1"); Some (s_ "2")]])).
(* Columns in another order *)
Example ex120_order : exists st, upload toy two (request true None (s_ "x.csv") (s_ "b,a;20,10")) = (st, Appended (s_ "x.csv")) /\ table toy st = Some ([(s_ "a", true); (s_ "b", true)], [[Some (s_ "1"); Some (s_ "2")]; [Some (s_ "20"); Some (s_ "10")]]).
Proof. eexists. split; reflexivity. Qed.
Example ex120_named : named (s_ "x") "csv" (s_ "x.csv") /\ target toy two None = Some [(s_ "a", true); (s_ "b", true)] /\ exists_table toy two /\ NoDup [s_ "a"; s_ "b"] /\ record_means toy [(s_ "a", true); (s_ "b", true)] [s_ "20"; []] [Some (s_ "20"); None].
Proof.
  split; [reflexivity|]. split; [reflexivity|]. split; [split; [reflexivity|discriminate]|]. split; [repeat constructor; cbn; intros I; repeat (destruct I as [I|I]; [discriminate I|]); exact I|]. split; [reflexivity|]. split; [reflexivity|].
  intros [|[|[|i]]] n t x C R; cbn in C, R; try discriminate C; injection C as <- <-; injection R as <-; eexists; (split; [reflexivity|]); constructor; [discriminate|reflexivity].
Qed.
(* Parquet: the columns are found by name, one is missing, one is left out, and 1000 does not fit *)
Example ex120_parquet : exists st, upload toy two (request true None (s_ "x.parquet") (s_ "c,a;20,10;30,1000")) = (st, Appended (s_ "x.parquet")) /\
  table toy st = Some ([(s_ "a", true); (s_ "b", true)], [[Some (s_ "1"); Some (s_ "2")]; [Some (s_ "10"); None]; [None; None]]).
Proof. eexists. split; reflexivity. Qed.
Example ex121_true : upload toy two (header_part (s_ "True") :: [file_part (s_ "x.csv") (s_ "1,2;3,4")]) = upload toy two (request false None (s_ "x.csv") (s_ "1,2;3,4")).
Proof. reflexivity. Qed.
Example ex121_one_each : one_each (request true (Some (s_ "a,b")) (s_ "x.csv") (s_ "1,2")).
Proof. cbn. repeat split; intros q I K; repeat (destruct I as [<-|I]; [discriminate K|]); destruct I. Qed.
(* The second record does not fit what was inferred: an empty table remains, and the right file is refused *)
Example ex122_empty : upload toy (with_table false None) (request true None (s_ "x.csv") (s_ "a,b;1,2;3")) = (with_table true (Some ([(s_ "a", true); (s_ "b", true)], [])), Refused).
Proof. reflexivity. Qed.
Example ex123 : accepts 256 268435456 = true /\ accepts 256 268435457 = false /\ accepts 17592186044416 1 = false.
Proof. split; [reflexivity|]. split; reflexivity. Qed.

Print Assumptions c120_csv.
Print Assumptions c120_header_partial.
Print Assumptions c120_header_refuted.
Print Assumptions c120_empty_refuted.
Print Assumptions c120_parquet_partial.
Print Assumptions c120_missing_refuted.
Print Assumptions c120_unfit_refuted.
Print Assumptions c120_extra_refuted.
Print Assumptions c121_order.
Print Assumptions c121_default.
Print Assumptions c121_two_files_refuted.
Print Assumptions c121_flag_refuted.
Print Assumptions c121_unknown_refuted.
Print Assumptions c121_schema_refuted.
Print Assumptions c122_partial.
Print Assumptions c122_form.
Print Assumptions c122_empty_refuted.
Print Assumptions c122_sample_refuted.
Print Assumptions c122_stuck_refuted.
Print Assumptions c123_partial.
Print Assumptions c123_refuted.
