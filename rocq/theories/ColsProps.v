(* C136 and C137: which messages the sync protocol accepts and can write, depending on the types and the names of their columns.
   Vocabulary in ColsSpec.v, code in ColsModel.v, proofs in ColsProofs.v. *)
Require Import Coq.Strings.Ascii Coq.Strings.String Coq.Lists.List Coq.Bool.Bool Coq.Arith.Arith.
Require Import Verif.ColsModel Verif.ColsSpec Verif.ColsProofs.
Import ListNotations.
Open Scope string_scope.
Open Scope list_scope.

(* a message for a table with key id and columns title and note, the latter with a flag *)
Definition int := Prim 0.
Definition text := Prim 1.
Definition d r n := {| d_role := Some r; d_name := n |}.
Definition msg_descs : list desc := [d OldPk "id"; d NewPk "id"; d Value "Title"; d Changed "note"; d Value "note"].
Definition msg_fields : list (string * dtype) := [("o", int); ("n", int); ("title", text); ("flag", Boolean); ("note", text)].
Definition msg_table : list (string * dtype) := [("id", int); ("Title", text); ("other", int); ("note", text)].
Definition msg_cols : list column := map to_column (combine msg_descs msg_fields).
Definition no_idents (s : string) : option string * string := (None, s).

(* C136: a message whose columns have plain types, described one by one, is accepted and each column gets its descriptor. *)
Theorem c136_flat_partial :
  forall descs fields v, flat fields -> proper descs fields -> exists cs, try_new descs fields v = Some cs /\ described descs fields cs.
Proof. exact proper_accepted. Qed.
Example c136_flat_nonvacuous : flat msg_fields /\ proper msg_descs msg_fields.
Proof.
  split.
  - intros f H [g N]. cbn in H. repeat destruct H as [<-|H]; try (inversion N; fail). contradiction.
  - constructor.
    + reflexivity.
    + intros x H. cbn in H. repeat destruct H as [<-|H]; try discriminate. contradiction.
    + intros i x f H K R. destruct i as [|[|[|[|[|i]]]]]; cbn in H, K; try (destruct i; discriminate); injection H as <-; injection K as <-; try discriminate.
      split; [reflexivity|]. exists (d Value "note"). split; [cbn; tauto|split; reflexivity].
    + exists (d OldPk "id"). split; [left; reflexivity|reflexivity].
    + intros n t. split; intros (i & x & f & H & K & R & <- & <-);
        (destruct i as [|[|[|[|[|i]]]]]; cbn in H, K; try (destruct i; discriminate); injection H as <-; injection K as <-; try discriminate).
      * exists 1, (d NewPk "id"), ("n", int). repeat split.
      * exists 0, (d OldPk "id"), ("o", int). repeat split.
Qed.
Print Assumptions c136_flat_partial.

(* REFUTED: a message with one descriptor for each column is refused as soon as a column has a nested type. *)
Theorem c136_nested_refuted :
  forall descs fields v f, In f fields -> nested f -> length descs = length fields -> try_new descs fields v = None.
Proof.
  intros descs fields v f I N L. unfold try_new. pose proof (flattened_longer fields f I N) as H. rewrite <- L in H.
  destruct (Nat.eqb_spec (length descs) (length (flattened fields))) as [E|_]; [|reflexivity]. rewrite E in H. destruct (Nat.lt_irrefl _ H).
Qed.
Example c136_nested_nonvacuous :
  try_new [d OldPk "id"; d NewPk "id"; d Value "tags"] [("o", int); ("n", int); ("t", ListOf "item" text)] true = None /\
  try_new [d OldPk "id"; d NewPk "id"; d Value "tags"] [("o", int); ("n", int); ("t", text)] true <> None.
Proof. split; [reflexivity|discriminate]. Qed.
Print Assumptions c136_nested_refuted.

(* REFUTED: nor does a descriptor for each field help, nested ones included, which is what is counted: the column after a nested one gets
   the descriptor of the first field inside the nested one. *)
Theorem c136_shifted_refuted :
  forall descs pre f g post v cs, try_new descs (pre ++ f :: g :: post) v = Some cs -> flat pre -> nested f ->
  exists child d c, first_inside (snd f) child /\ length descs > length (pre ++ f :: g :: post) /\
    nth_error descs (S (length pre)) = Some d /\ nth_error cs (S (length pre)) = Some c /\
    c_field c = g /\ c_name c = d_name d /\ d_role d = Some (c_role c).
Proof.
  intros descs pre f g post v cs H F N. destruct (shifted descs pre f g post v cs H F N) as (child & d0 & c & _ & H1 & H2). exists child, d0, c.
  split; [apply first_inside_iff; destruct (children (snd f)) as [|x r]; [discriminate|]; injection H1 as <-; exists r; reflexivity|].
  split; [|exact H2]. unfold try_new in H. destruct (Nat.eqb_spec (length descs) (length (flattened (pre ++ f :: g :: post)))) as [->|]; [|discriminate].
  apply flattened_longer with (f := f); [apply in_or_app; right; left; reflexivity|exact N].
Qed.
Example c136_shifted_nonvacuous :
  exists cs, try_new [d OldPk "id"; d NewPk "id"; d Value "tags"; d Value "item"; d Value "title"]
               [("o", int); ("n", int); ("t", ListOf "item" text); ("title", text)] true = Some cs /\
    nth_error (map (fun c => (c_name c, c_field c)) cs) 3 = Some ("item", ("title", text)).
Proof. eexists. split; reflexivity. Qed.
Print Assumptions c136_shifted_refuted.

(* REFUTED: no message at all can be written to a table that has a column of a nested type. *)
Theorem c136_table_refuted :
  forall parse_other table has_values cs f, In f table -> nested f -> plan parse_other table has_values cs = None.
Proof. intros p t h cs f. apply nested_table_fails. Qed.
Example c136_table_nonvacuous :
  plan no_idents (msg_table ++ [("tags", ListOf "item" text)]) (fun _ => true) msg_cols = None /\
  plan no_idents (msg_table ++ [("tags", text)]) (fun _ => true) msg_cols <> None.
Proof. split; [reflexivity|discriminate]. Qed.
Print Assumptions c136_table_refuted.

(* C137: an accepted message is written, and each column of the table is taken from the right field, if columns and fields have different
   names and the names of the keys and of the fields are in lower case; the other columns may have any names. *)
Theorem c137_written_partial :
  forall parse_other descs fields table has_values cs,
    try_new descs fields true = Some cs -> flat fields -> flat table -> NoDup (map fst table) -> orderly table cs ->
    exists out, plan parse_other table has_values cs = Some out /\ map fst out = map fst table /\ forall n s, In (n, s) out -> right cs n s.
Proof. intros p descs fields table h cs. apply orderly_plan. Qed.
Example c137_written_nonvacuous :
  try_new msg_descs msg_fields true = Some msg_cols /\ flat msg_fields /\ flat msg_table /\ NoDup (map fst msg_table) /\ orderly msg_table msg_cols /\
  plan no_idents msg_table (fun _ => true) msg_cols =
    Some [("id", Key "o" "n"); ("Title", Taken "title"); ("other", Kept); ("note", TakenIf "flag" "note")].
Proof.
  split; [reflexivity|]. split; [apply c136_flat_nonvacuous|]. split.
  { intros f H [g N]. cbn in H. repeat destruct H as [<-|H]; try (inversion N; fail). contradiction. }
  split; [apply nodupb_spec; reflexivity|]. split; [|reflexivity]. constructor.
  - cbn. repeat (constructor; [cbn; intros X; repeat destruct X as [X|X]; try discriminate X; exact X|]). constructor.
  - apply nodupb_spec. reflexivity.
  - intros c H. cbn in H. repeat destruct H as [<-|H]; try (split; reflexivity). contradiction.
  - intros c H K. cbn in H. repeat destruct H as [<-|H]; try (destruct K; discriminate); try (split; reflexivity). contradiction.
  - reflexivity.
  - intros c H K. cbn in H. repeat destruct H as [<-|H]; try (destruct K; discriminate); try (cbn; tauto).
Qed.
Print Assumptions c137_written_partial.

(* REFUTED: a key column whose name has capitals, in a table that has no column with that name in lower case: the flush always fails. *)
Theorem c137_capital_key_refuted :
  forall parse_other table has_values cs c, In c cs -> is_key c -> has_values (c_name c) = true -> plain (c_name c) = true ->
    ~ In (lower (c_name c)) (map fst table) -> plan parse_other table has_values cs = None.
Proof. intros p t h cs c. apply capital_key_fails. Qed.
Example c137_capital_key_nonvacuous :
  exists cs, try_new [d OldPk "Id"; d NewPk "Id"; d Value "v"] [("o", int); ("n", int); ("v", text)] true = Some cs /\
    created cs = [("Id", int); ("v", text)] /\ ~ In (lower "Id") (map fst (created cs)) /\ plan no_idents (created cs) (fun _ => true) cs = None.
Proof. eexists. split; [reflexivity|]. split; [reflexivity|]. split; [cbn; intuition discriminate|reflexivity]. Qed.
Print Assumptions c137_capital_key_refuted.

(* REFUTED: so does a field of the message whose name has capitals. *)
Theorem c137_capital_field_refuted :
  forall parse_other table has_values cs c, In c cs -> c_role c <> NewPk -> plain (field_name c) = true ->
    ~ In (lower (field_name c)) (map field_name cs) -> plan parse_other table has_values cs = None.
Proof. intros p t h cs c. apply capital_field_fails. Qed.
Example c137_capital_field_nonvacuous :
  exists cs, try_new [d OldPk "id"; d NewPk "id"; d Value "v"] [("o", int); ("n", int); ("V", text)] true = Some cs /\
    plan no_idents (created cs) (fun _ => true) cs = None.
Proof. eexists. split; reflexivity. Qed.
Print Assumptions c137_capital_field_refuted.

(* REFUTED: if the name in lower case is another field, the values of that field are written instead. *)
Theorem c137_wrong_column_refuted :
  exists descs fields cs, try_new descs fields true = Some cs /\ flat fields /\ NoDup (map field_name cs) /\ NoDup (map tag cs) /\
    forall parse_other, exists out s, plan parse_other (created cs) (fun _ => true) cs = Some out /\ In ("price", s) out /\ ~ right cs "price" s.
Proof.
  exists [d OldPk "id"; d NewPk "id"; d Value "price"; d Value "cost"], [("o", int); ("n", int); ("P", int); ("p", int)]. eexists.
  split; [reflexivity|]. split.
  { intros f H [g N]. cbn in H. repeat destruct H as [<-|H]; try (inversion N; fail). contradiction. }
  split; [apply nodupb_spec; reflexivity|]. split; [cbn; repeat (constructor; [cbn; intros X; repeat destruct X as [X|X]; try discriminate X; exact X|]); constructor|].
  intros q. do 2 eexists. split; [reflexivity|]. split; [right; left; reflexivity|].
  intros R. inversion R as [c I T N E|c e I T I' T' E|o k I T I' T' N E|N E].
  cbn in I. repeat destruct I as [<-|I]; try discriminate. contradiction.
Qed.
Print Assumptions c137_wrong_column_refuted.

(* REFUTED: two columns with the same role and name are accepted, but then the flush always fails. *)
Theorem c137_same_column_refuted :
  forall parse_other descs fields table has_values cs, try_new descs fields true = Some cs -> ~ NoDup (map tag cs) ->
    plan parse_other table has_values cs = None.
Proof. intros p descs fields t h cs. apply same_tag_fails. Qed.
Example c137_same_column_nonvacuous :
  exists cs, try_new [d OldPk "id"; d NewPk "id"; d Value "v"; d Value "v"] [("o", int); ("n", int); ("v", text); ("w", text)] true = Some cs /\
    ~ NoDup (map tag cs).
Proof.
  eexists. split; [reflexivity|]. cbn. intros N. inversion N as [|? ? _ N1]; subst. inversion N1 as [|? ? _ N2]; subst.
  inversion N2 as [|? ? X _]; subst. apply X. left. reflexivity.
Qed.
Print Assumptions c137_same_column_refuted.

(* REFUTED: two fields with the same name likewise. *)
Theorem c137_same_field_refuted :
  forall parse_other table has_values cs, ~ NoDup (map field_name cs) -> plan parse_other table has_values cs = None.
Proof. intros p t h cs. apply same_field_fails. Qed.
Example c137_same_field_nonvacuous :
  exists cs, try_new [d OldPk "id"; d NewPk "id"; d Value "v"] [("id", int); ("id", int); ("v", text)] true = Some cs /\
    ~ NoDup (map field_name cs).
Proof. eexists. split; [reflexivity|]. cbn. intros N. inversion N as [|? ? X _]; subst. apply X. left. reflexivity. Qed.
Print Assumptions c137_same_field_refuted.
