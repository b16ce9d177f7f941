(* C93 (a type means the same in CREATE FUNCTION and in CREATE TABLE) and C94 (a stored function is read back as it was created).
   Specification: FunSpec.v, models: FunModel.v, UdfModel.v (arrow_type) and TypesModel.v (convert_simple_data_type). *)
From Coq Require Import Ascii String List ZArith Bool Lia.
From Verif Require Import UdfModel FunModel FunSpec.
From Verif Require TypesModel.
Import ListNotations.
Open Scope string_scope.

(* ---- C93 ---- *)
(* An argument declared with the name of a type, in any case, takes exactly the columns that are declared with this name *)
Theorem c93_partial text name t : upper text = name -> named name t -> name <> "DECIMAL" -> name <> "TIMESTAMP" ->
  exists f c, parse_type text = Some f /\ TypesModel.convert_simple_data_type t = Some c /\ kind_of_argument (arrow_type f) = kind_of_column c.
Proof.
  intros U N D T. unfold parse_type. rewrite U. clear U. destruct N; try (exfalso; congruence); eexists; eexists; (split; [reflexivity|split; reflexivity]).
Qed.
(* DECIMAL: 38 digits in a table, none in a function *)
Theorem c93_decimal_refuted text : upper text = "DECIMAL" -> exists f c, parse_type text = Some f /\
  TypesModel.convert_simple_data_type (TypesModel.Decimal TypesModel.ExactNone) = Some c /\ kind_of_argument (arrow_type f) = Fixed 0 0 /\ kind_of_column c = Fixed 38 10.
Proof. intros U. unfold parse_type. rewrite U. eexists. eexists. split; [reflexivity|]. split; [reflexivity|]. split; reflexivity. Qed.
(* ... and no other precision can be asked for *)
Lemma parsed_in s t : type_from_str s = Some t -> In t all_types /\ type_name t = s.
Proof. unfold type_from_str. intros H. apply find_some in H. destruct H as [I E]. split; [exact I|]. apply String.eqb_eq, E. Qed.
Theorem c93_decimal_parameters_refuted rest : parse_type ("DECIMAL(" ++ rest) = None.
Proof.
  unfold parse_type. destruct (type_from_str (upper ("DECIMAL(" ++ rest))) as [t|] eqn:H; [|reflexivity]. exfalso.
  apply parsed_in in H. destruct H as [I E]. cbn in I. cbn [append upper] in E.
  repeat (destruct I as [<-|I]; [cbn in E; discriminate|]). destruct I.
Qed.
(* TIMESTAMP: microseconds in a table, nanoseconds in a function *)
Theorem c93_timestamp_refuted text : upper text = "TIMESTAMP" -> exists f c, parse_type text = Some f /\
  TypesModel.convert_simple_data_type (TypesModel.Timestamp None TypesModel.TzNone) = Some c /\
  kind_of_argument (arrow_type f) = Instant Nanoseconds None /\ kind_of_column c = Instant Microseconds None.
Proof. intros U. unfold parse_type. rewrite U. eexists. eexists. split; [reflexivity|]. split; [reflexivity|]. split; reflexivity. Qed.
Example c93_example : upper "BigInt" = "BIGINT" /\ named "BIGINT" (TypesModel.BigInt None) /\ parse_type "BigInt" = Some FBIGINT /\ parse_type "integer" = None.
Proof. split; [reflexivity|]. split; [constructor|]. split; reflexivity. Qed.

(* ---- C94 ---- *)
Lemma volatility_back v : volatility_from_str (volatility_name v) = Some v.
Proof. destruct v; reflexivity. Qed.
Lemma language_back g : language_from_str (language_name g) = Some g.
Proof. destruct g; reflexivity. Qed.
Definition decimal_in_range (t : ftype) : Prop := match t with FDECIMAL p s => (0 <= p < 256 /\ -128 <= s < 128)%Z | _ => True end.
Lemma type_back t : decimal_in_range t -> read_stored_type (write_type t) = Some t.
Proof.
  destruct t; try reflexivity. cbn [decimal_in_range]. intros [P S].
  assert (E1 : in_u8 precision = true) by (unfold in_u8; apply andb_true_iff; split; [apply Z.leb_le|apply Z.ltb_lt]; lia).
  assert (E2 : in_i8 scale = true) by (unfold in_i8; apply andb_true_iff; split; [apply Z.leb_le|apply Z.ltb_lt]; lia).
  cbn [write_type read_stored_type String.eqb Ascii.eqb Bool.eqb field filter fst required read_number]. cbn. rewrite E1, E2. reflexivity.
Qed.
Lemma types_back l : (forall t, In t l -> decimal_in_range t) -> all_some (map read_stored_type (map write_type l)) = Some l.
Proof.
  induction l as [|t l IH]; intros H; [reflexivity|]. cbn [map all_some]. rewrite (type_back t (H t (or_introl eq_refl))), (IH (fun x I => H x (or_intror I))). reflexivity.
Qed.
(* Every definition, except for the digits of a returned decimal *)
Theorem c94_any_partial d : (forall t, In t (input_types d) -> decimal_in_range t) -> (forall p s, return_type d = FDECIMAL p s -> p = 0%Z /\ s = 0%Z) -> load (store d) = Some d.
Proof.
  intros H R. destruct d as [e g i t x v]. unfold load, store. cbn [entrypoint lang input_types return_type data vol r_language r_input_types r_return_type r_volatility r_entrypoint r_data] in *.
  rewrite language_back, volatility_back, (types_back i H).
  assert (E : type_from_str (upper (type_name t)) = Some t).
  { destruct t; try reflexivity. destruct (R _ _ eq_refl) as [-> ->]. reflexivity. }
  rewrite E. reflexivity.
Qed.
Theorem c94_digits_refuted d p s : return_type d = FDECIMAL p s -> p <> 0%Z \/ s <> 0%Z -> load (store d) <> Some d.
Proof.
  intros R N. destruct d as [e g i t x v]. cbn in R. subst t. unfold load, store. cbn [entrypoint lang input_types return_type data vol r_language r_input_types r_return_type r_volatility r_entrypoint r_data].
  destruct (language_from_str _); [|discriminate]. destruct (all_some _); [|discriminate]. cbn [type_name]. replace (type_from_str (upper "DECIMAL")) with (Some (FDECIMAL 0 0)) by reflexivity.
  destruct (volatility_from_str _); [|discriminate]. intros E. assert (P : FDECIMAL 0 0 = FDECIMAL p s) by congruence. injection P as <- <-. destruct N; congruence.
Qed.
(* Every definition that CREATE FUNCTION accepts: no digits can be given there *)
Lemma parse_type_plain s t : parse_type s = Some t -> decimal_in_range t /\ (forall p q, t = FDECIMAL p q -> p = 0%Z /\ q = 0%Z).
Proof.
  intros H. apply parsed_in in H. destruct H as [I _]. cbn in I.
  repeat (destruct I as [<-|I]; [split; [cbn; lia|intros p q E; first [discriminate E|injection E as <- <-; split; reflexivity]]|]). destruct I.
Qed.
Lemma all_some_in {A B} (f : A -> option B) l r : all_some (map f l) = Some r -> forall y, In y r -> exists x, In x l /\ f x = Some y.
Proof.
  revert r. induction l as [|x l IH]; intros r; cbn [map all_some]; intros H y I; [injection H as <-; destruct I|].
  destruct (f x) as [z|] eqn:F; [|discriminate]. destruct (all_some (map f l)) as [r'|] eqn:R; [|discriminate]. injection H as <-.
  destruct I as [<-|I]; [exists x; split; [left; reflexivity|exact F]|]. destruct (IH r' eq_refl y I) as (x' & I' & F'). exists x'. split; [right; exact I'|exact F'].
Qed.
Theorem c94_stored j d : parse_details j = Some d -> load (store d) = Some d.
Proof.
  intros H. destruct j as [| | | |l]; try discriminate. unfold parse_details in H.
  destruct (required read_text (field "entrypoint" l)) as [e|]; [|discriminate].
  destruct (defaulted read_language WasmMessagePack (field "language" l)) as [g|]; [|discriminate].
  destruct (required read_input_types (field "input_types" l)) as [i|] eqn:I; [|discriminate].
  destruct (required read_return_type (field "return_type" l)) as [r|] eqn:R; [|discriminate].
  destruct (required read_text (field "data" l)) as [x|]; [|discriminate].
  destruct (defaulted read_volatility Volatile (field "volatility" l)) as [v|]; [|discriminate]. injection H as <-.
  apply c94_any_partial; cbn [input_types return_type].
  - unfold required in I. destruct (field "input_types" l) as [|j|]; try discriminate. destruct j as [| | |l'|]; try discriminate. cbn [read_input_types] in I.
    intros t T. destruct (all_some_in _ _ _ I t T) as (j & _ & F). destruct j as [plain s| | | |]; try discriminate. cbn [read_input_type] in F. destruct plain; [|discriminate].
    exact (proj1 (parse_type_plain s t F)).
  - unfold required in R. destruct (field "return_type" l) as [|j|]; try discriminate. destruct j as [plain s| | | |]; try discriminate. cbn [read_return_type] in R.
    exact (proj2 (parse_type_plain s r R)).
Qed.
(* ... so that the functions of a database are all found again, under their names *)
Theorem c94_all (fs : list (string * details)) : (forall f, In f fs -> exists j, parse_details j = Some (snd f)) -> load_all (map (fun f => (fst f, store (snd f))) fs) = Some fs.
Proof.
  induction fs as [|[n d] fs IH]; intros H; [reflexivity|]. unfold load_all in *. cbn [map fst snd]. destruct (H (n, d) (or_introl eq_refl)) as [j J]. cbn [snd] in J.
  rewrite (c94_stored j d J). cbn [all_some]. rewrite (IH (fun f I => H f (or_intror I))). reflexivity.
Qed.
Lemma none_given {A} k (l : list (string * A)) : filter (fun kv => String.eqb (fst kv) k) l = [] -> ~ In k (map fst l).
Proof.
  induction l as [|[k' v] l IH]; cbn [filter fst map]; [intros _ []|]. destruct (String.eqb k' k) eqn:Q; [discriminate|]. apply String.eqb_neq in Q. intros E [I|I]; [exact (Q I)|exact (IH E I)].
Qed.
Lemma absent_not_given k l : field k l = Absent -> not_given k l.
Proof. unfold field. intros E. apply none_given. destruct (filter _ l) as [|[k' v] [|]]; [reflexivity|discriminate..]. Qed.
Lemma once_given k l j : field k l = Once j -> given_once k l j.
Proof.
  unfold field, given_once. induction l as [|[k' v] l IH]; cbn [filter fst]; [discriminate|]. destruct (String.eqb k' k) eqn:Q.
  - apply String.eqb_eq in Q. subst k'. destruct (filter _ l) as [|x r] eqn:F; [|discriminate]. intros E. injection E as ->. exists [], l. split; [reflexivity|]. apply none_given. exact F.
  - apply String.eqb_neq in Q. intros E. destruct (IH E) as (b & a & -> & N). exists ((k', v) :: b), a. split; [reflexivity|]. cbn [app map fst]. intros [I|I]; [exact (Q I)|exact (N I)].
Qed.
Lemma read_fields l d : parse_details (JObject l) = Some d ->
  (exists texts, field "input_types" l = Once (JList (map (JText true) texts)) /\ map (fun t => Some t) (input_types d) = map parse_type texts) /\
  (exists plain text, field "return_type" l = Once (JText plain text) /\ parse_type text = Some (return_type d)) /\
  (exists plain, field "data" l = Once (JText plain (data d))) /\ (exists plain, field "entrypoint" l = Once (JText plain (entrypoint d))) /\
  (field "language" l = Absent /\ lang d = WasmMessagePack \/
   exists plain, field "language" l = Once (JText plain (match lang d with Wasm => "wasm" | WasmMessagePack => "wasmMessagePack" end))) /\
  (field "volatility" l = Absent /\ vol d = Volatile \/
   exists plain, field "volatility" l = Once (JText plain (match vol d with Immutable => "immutable" | Stable => "stable" | Volatile => "volatile" end))).
Proof.
  intros H. unfold parse_details in H.
  destruct (required read_text (field "entrypoint" l)) as [e|] eqn:E; [|discriminate].
  destruct (defaulted read_language WasmMessagePack (field "language" l)) as [g|] eqn:G; [|discriminate].
  destruct (required read_input_types (field "input_types" l)) as [i|] eqn:I; [|discriminate].
  destruct (required read_return_type (field "return_type" l)) as [r|] eqn:R; [|discriminate].
  destruct (required read_text (field "data" l)) as [x|] eqn:X; [|discriminate].
  destruct (defaulted read_volatility Volatile (field "volatility" l)) as [v|] eqn:V; [|discriminate]. injection H as <-.
  cbn [input_types return_type data entrypoint lang vol]. unfold required in E, I, R, X.
  destruct (field "entrypoint" l) as [|je|]; try discriminate. split; [|split; [|split; [|split; [|split]]]].
  - destruct (field "input_types" l) as [|j|]; try discriminate. destruct j as [| | |l'|]; try discriminate. cbn [read_input_types] in I. clear -I. revert i I.
    induction l' as [|j l' IH]; intros i I; cbn [map all_some] in I; [injection I as <-; exists []; split; reflexivity|].
    destruct (read_input_type j) as [t|] eqn:T; [|discriminate]. destruct (all_some (map read_input_type l')) as [r|] eqn:A; [|discriminate]. injection I as <-.
    destruct (IH r eq_refl) as (texts & E1 & E2). destruct j as [plain s| | | |]; try discriminate. cbn [read_input_type] in T. destruct plain; [|discriminate].
    exists (s :: texts). cbn [map]. split; [injection E1 as ->; reflexivity|]. rewrite T, E2. reflexivity.
  - destruct (field "return_type" l) as [|j|]; try discriminate. destruct j as [plain s| | | |]; try discriminate. exists plain, s. split; [reflexivity|exact R].
  - destruct (field "data" l) as [|j|]; try discriminate. destruct j as [plain s| | | |]; try discriminate. cbn in X. injection X as ->. exists plain. reflexivity.
  - destruct je as [plain s| | | |]; try discriminate. cbn in E. injection E as ->. exists plain. reflexivity.
  - destruct (field "language" l) as [|j|]; cbn [defaulted] in G; [left; split; [reflexivity|congruence]|right|discriminate].
    destruct j as [plain s| | | |]; try discriminate. exists plain. cbn [read_language] in G.
    destruct (String.eqb s "wasm") eqn:Q; [apply String.eqb_eq in Q; rewrite Q; injection G as <-; reflexivity|clear Q]. destruct (String.eqb s "wasmMessagePack") eqn:Q; [apply String.eqb_eq in Q; rewrite Q; injection G as <-; reflexivity|discriminate].
  - destruct (field "volatility" l) as [|j|]; cbn [defaulted] in V; [left; split; [reflexivity|congruence]|right|discriminate].
    destruct j as [plain s| | | |]; try discriminate. exists plain. cbn [read_volatility] in V.
    destruct (String.eqb s "immutable") eqn:Q; [apply String.eqb_eq in Q; rewrite Q; injection V as <-; reflexivity|clear Q]. destruct (String.eqb s "stable") eqn:Q; [apply String.eqb_eq in Q; rewrite Q; injection V as <-; reflexivity|clear Q].
    destruct (String.eqb s "volatile") eqn:Q; [apply String.eqb_eq in Q; rewrite Q; injection V as <-; reflexivity|discriminate].
Qed.
(* What CREATE FUNCTION says is what is created: the types are the named ones, in their order, and what is not said has its default *)
Theorem c94_read l d : parse_details (JObject l) = Some d ->
  (exists texts, given_once "input_types" l (JList (map (JText true) texts)) /\ map (fun t => Some t) (input_types d) = map parse_type texts) /\
  (exists plain text, given_once "return_type" l (JText plain text) /\ parse_type text = Some (return_type d)) /\
  (exists plain, given_once "data" l (JText plain (data d))) /\ (exists plain, given_once "entrypoint" l (JText plain (entrypoint d))) /\
  (not_given "language" l /\ lang d = WasmMessagePack \/
   exists plain, given_once "language" l (JText plain (match lang d with Wasm => "wasm" | WasmMessagePack => "wasmMessagePack" end))) /\
  (not_given "volatility" l /\ vol d = Volatile \/
   exists plain, given_once "volatility" l (JText plain (match vol d with Immutable => "immutable" | Stable => "stable" | Volatile => "volatile" end))).
Proof.
  intros H. destruct (read_fields l d H) as ((ts & I1 & I2) & (rp & rt & R1 & R2) & (dp & D) & (ep & E) & L & V). split; [exists ts; split; [apply once_given; exact I1|exact I2]|].
  split; [exists rp, rt; split; [apply once_given; exact R1|exact R2]|]. split; [exists dp; apply once_given; exact D|]. split; [exists ep; apply once_given; exact E|]. split.
  - destruct L as [[L1 L2]|(p & L)]; [left; split; [apply absent_not_given; exact L1|exact L2]|right; exists p; apply once_given; exact L].
  - destruct V as [[V1 V2]|(p & V)]; [left; split; [apply absent_not_given; exact V1|exact V2]|right; exists p; apply once_given; exact V].
Qed.
Definition example_details : json := JObject [("entrypoint", JText true "f"); ("input_types", JList [JText true "decimal"; JText true "Date"]); ("return_type", JText true "varchar");
  ("data", JText true "AGFzbQ"); ("volatility", JText true "stable")].
Example c94_example : parse_details example_details =
  Some {| entrypoint := "f"; lang := WasmMessagePack; input_types := [FDECIMAL 0 0; FDATE]; return_type := FVARCHAR; data := "AGFzbQ"; vol := Stable |}.
Proof. reflexivity. Qed.

Print Assumptions c93_partial.
Print Assumptions c93_decimal_refuted.
Print Assumptions c93_decimal_parameters_refuted.
Print Assumptions c93_timestamp_refuted.
Print Assumptions c94_any_partial.
Print Assumptions c94_digits_refuted.
Print Assumptions c94_stored.
Print Assumptions c94_all.
Print Assumptions c94_read.
