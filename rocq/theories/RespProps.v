(* C116 (rows as JSON), C117 (answers of queries that fail), C118 (status codes) and C119 (names in URLs) of the HTTP frontend.
   Specification: RespSpec.v, model: RespModel.v. *)
From Coq Require Import Ascii String List Bool Arith NArith Lia.
From Verif Require Import RespModel RespSpec.
Import ListNotations.
Open Scope list_scope.

(* ---- C116 ---- *)
Lemma read_escape c t : read_string (escape c ++ t) = match read_string t with Some (s, z) => Some (c :: s, z) | None => None end.
Proof. destruct c as [[] [] [] [] [] [] [] []]; reflexivity. Qed.
Lemma read_encoded t z : read_string (flat_map escape t ++ quote :: z) = Some (t, z).
Proof. induction t as [|c t IH]; cbn [flat_map]; [reflexivity|]. rewrite <- app_assoc, read_escape, IH. reflexivity. Qed.
Definition ends (z : list ascii) : Prop := match z with [] => True | c :: _ => number_char c = false end.
Lemma read_numeral t z : Forall (fun c => number_char c = true) t -> ends z -> read_number (t ++ z) = (t, z).
Proof.
  intros F E. induction F as [|c t C F IH]; cbn [app read_number]; [destruct z as [|c z]; [reflexivity|]; cbn [read_number]; cbn [ends] in E; rewrite E; reflexivity|]. rewrite C, IH. reflexivity.
Qed.
Definition shown (c : cell) : json := match c with Null | NotFinite => JNull | Flag b => JBool b | Number t => JNumber t | Text t => JString t end.
Lemma read_cell c z : (forall t, c = Number t -> numeral t) -> ends z -> read_value (encode_cell c ++ z) = Some (shown c, z).
Proof.
  intros N E. destruct c as [|[]|t| |t]; try reflexivity.
  - destruct (N t eq_refl) as [Ne F]. cbn [encode_cell shown]. destruct t as [|a t]; [contradiction|]. pose proof (read_numeral (a :: t) z F E) as R. inversion_clear F as [|? ? A _].
    cbn [app] in R |- *. destruct a as [[] [] [] [] [] [] [] []]; try discriminate A; unfold read_value; rewrite R; reflexivity.
  - cbn [encode_cell shown]. unfold encode_string. cbn [app]. rewrite <- app_assoc. cbn [app]. unfold read_value, quote. change """"%char with quote at 1. rewrite read_encoded. reflexivity.
Qed.
Lemma read_field n c z : (forall t, c = Number t -> numeral t) -> ends z -> read_member (encode_field (n, c) ++ z) = Some ((n, shown c), z).
Proof.
  intros N E. unfold encode_field, encode_string. cbn [fst snd app]. rewrite <- !app_assoc. cbn [app]. unfold read_member, quote at 1. rewrite read_encoded. cbn [app s_ list_ascii_of_string]. rewrite (read_cell c z N E). reflexivity.
Qed.
Lemma commas_cons x y l : commas (x :: y :: l) = x ++ s_ "," ++ commas (y :: l).
Proof. reflexivity. Qed.
Definition shown_row (r : list (list ascii * cell)) : list (list ascii * json) := map (fun f => (fst f, shown (snd f))) r.
Lemma read_fields r : r <> [] -> printable r -> forall fuel z, length r <= fuel -> read_members fuel (commas (map encode_field r) ++ s_ "}" ++ z) = Some (shown_row r, z).
Proof.
  induction r as [|[n c] r IH]; [congruence|]. intros _ P fuel z L. cbn [length] in L. destruct fuel as [|fuel]; [lia|]. assert (N : forall t, c = Number t -> numeral t) by (intros t ->; apply (P n t); left; reflexivity).
  destruct r as [|f r].
  - cbn [map commas read_members]. rewrite (read_field n c (s_ "}" ++ z) N eq_refl). reflexivity.
  - cbn [map]. rewrite commas_cons, <- !app_assoc. cbn [read_members]. rewrite (read_field n c _ N); [|reflexivity]. cbn [s_ list_ascii_of_string app].
    change (encode_field f :: map encode_field r) with (map encode_field (f :: r)). change ("}"%char :: z) with (s_ "}" ++ z). rewrite IH; [reflexivity|discriminate|intros m t I; apply (P m t); right; exact I|lia].
Qed.
Lemma commas_length r : length r <= length (commas (map encode_field r)).
Proof.
  induction r as [|f r IH]; [apply Nat.le_refl|]. destruct r as [|g r]; [cbn [map commas]; unfold encode_field, encode_string; cbn [app length]; lia|].
  cbn [map]. rewrite commas_cons, !app_length. change (length (s_ ",")) with 1. cbn [map] in IH. cbn [length] in *. lia.
Qed.
Lemma read_row r z fuel : printable r -> length (encode_row r) <= fuel -> read_object fuel (encode_row r ++ z) = Some (shown_row r, newline :: z).
Proof.
  intros P L. unfold encode_row in *. rewrite !app_length in L. rewrite <- !app_assoc. cbn [s_ list_ascii_of_string app]. destruct r as [|f r]; [reflexivity|].
  assert (X : read_members fuel (commas (map encode_field (f :: r)) ++ s_ "}" ++ newline :: z) = Some (shown_row (f :: r), newline :: z)) by (apply read_fields; [discriminate|exact P|pose proof (commas_length (f :: r)); lia]).
  cbn [s_ list_ascii_of_string app] in X. unfold read_object. destruct (commas (map encode_field (f :: r)) ++ "}"%char :: newline :: z) as [|a t] eqn:E; [exact X|].
  assert (Q : a = quote) by (destruct r; cbn [map commas] in E; unfold encode_field, encode_string in E; cbn [app] in E; injection E as E _; symmetry; exact E). subst a. exact X.
Qed.
Lemma read_batch rows : Forall printable rows -> forall fuel, length rows <= fuel -> read_lines_fuel fuel (batch_to_json rows) = Some (map shown_row rows).
Proof.
  intros F. induction F as [|r rows P F IH]; intros fuel L; [destruct fuel; reflexivity|]. cbn [length] in L. destruct fuel as [|fuel]; [lia|]. cbn [batch_to_json flat_map]. change (flat_map encode_row rows) with (batch_to_json rows).
  assert (X : read_object (length (encode_row r ++ batch_to_json rows)) (encode_row r ++ batch_to_json rows) = Some (shown_row r, newline :: batch_to_json rows)) by (apply read_row; [exact P|rewrite app_length; lia]).
  destruct (encode_row r ++ batch_to_json rows) as [|a t] eqn:E; [unfold encode_row in E; discriminate|]. cbn [read_lines_fuel]. rewrite X. cbn [Nat.eqb newline nat_of_ascii]. rewrite (IH fuel) by lia. reflexivity.
Qed.
Lemma batch_length rows : length rows <= length (batch_to_json rows).
Proof. induction rows as [|r rows IH]; [apply Nat.le_refl|]. cbn [batch_to_json flat_map]. change (flat_map encode_row rows) with (batch_to_json rows). rewrite app_length. unfold encode_row. rewrite !app_length. cbn [length s_ list_ascii_of_string]. lia. Qed.
Lemma read_all rows : Forall printable rows -> read_lines (batch_to_json rows) = Some (map shown_row rows).
Proof. intros F. apply (read_batch rows F). apply batch_length. Qed.
Lemma shown_says c : c <> NotFinite -> says c (shown c).
Proof. destruct c as [|[]| | |]; intros N; try constructor. contradiction. Qed.

(* A client reads all rows, in order, with all columns in order *)
Theorem c116_rows : forall rows, Forall printable rows -> Forall finite rows ->
  exists objects, read_lines (batch_to_json rows) = Some objects /\ Forall2 (fun r o => Forall2 (fun f m => fst f = fst m /\ says (snd f) (snd m)) r o) rows objects.
Proof.
  intros rows P F. exists (map shown_row rows). split; [exact (read_all rows P)|]. clear P. induction F as [|r rows H F IH]; [constructor|]. cbn [map]. constructor; [|exact IH]. unfold finite in H. clear IH F.
  induction r as [|[n c] r IH]; [constructor|]. cbn [shown_row map]. constructor; [split; [reflexivity|apply shown_says; cbn [snd]; intros ->; apply (H n); left; reflexivity]|]. apply IH. intros m I. apply (H m). right. exact I.
Qed.
Lemma value_none o name : ~ In name (map fst o) -> value_of o name = None.
Proof. induction o as [|[k v] o IH]; intros N; [reflexivity|]. cbn [value_of map fst In] in *. rewrite IH by tauto. destruct (list_eq_dec ascii_dec k name); [tauto|reflexivity]. Qed.
Lemma shown_names r : map fst (shown_row r) = map fst r.
Proof. unfold shown_row. rewrite map_map. reflexivity. Qed.
Lemma value_shown r name c : NoDup (map fst r) -> In (name, c) r -> value_of (shown_row r) name = Some (shown c).
Proof.
  induction r as [|[k d] r IH]; intros N I; [destruct I|]. cbn [map fst] in N. inversion_clear N as [|? ? K N']. cbn [shown_row map value_of fst snd]. change (map (fun f => (fst f, shown (snd f))) r) with (shown_row r). destruct I as [E|I].
  - injection E as -> ->. rewrite value_none by (rewrite shown_names; exact K). destruct (list_eq_dec ascii_dec name name); [reflexivity|contradiction].
  - rewrite (IH N' I). reflexivity.
Qed.
(* By name: if the columns of the result have different names *)
Theorem c116_partial : forall rows i r name c, Forall printable rows -> Forall finite rows -> nth_error rows i = Some r -> NoDup (map fst r) -> In (name, c) r ->
  exists objects o v, read_lines (batch_to_json rows) = Some objects /\ nth_error objects i = Some o /\ value_of o name = Some v /\ says c v.
Proof.
  intros rows i r name c P F N D I. exists (map shown_row rows), (shown_row r), (shown c). split; [exact (read_all rows P)|]. split; [rewrite nth_error_map, N; reflexivity|]. split; [apply value_shown; assumption|].
  apply shown_says. intros ->. rewrite Forall_forall in F. apply nth_error_In in N. exact (F r N name I).
Qed.
(* Of two columns with one name, as in SELECT * of a join, the first one is lost *)
Lemma value_app a b name : value_of (a ++ b) name = match value_of b name with Some v => Some v | None => value_of a name end.
Proof. induction a as [|[k v] a IH]; cbn [app value_of]; [destruct (value_of b name); reflexivity|]. rewrite IH. destruct (value_of b name); reflexivity. Qed.
Theorem c116_duplicate_refuted : forall r1 r2 r3 name a b c,
  let row x := r1 ++ (name, x) :: r2 ++ (name, c) :: r3 in printable (row a) -> printable (row b) ->
  exists o o', read_lines (batch_to_json [row a]) = Some [o] /\ read_lines (batch_to_json [row b]) = Some [o'] /\ forall n, value_of o n = value_of o' n.
Proof.
  intros r1 r2 r3 name a b c row Pa Pb. exists (shown_row (row a)), (shown_row (row b)). split; [apply (read_all [row a]); constructor; [exact Pa|constructor]|]. split; [apply (read_all [row b]); constructor; [exact Pb|constructor]|]. intros n.
  unfold row, shown_row. rewrite !map_app. cbn [map fst snd]. rewrite !value_app. cbn [value_of]. rewrite !map_app, !value_app. cbn [map fst snd value_of].
  destruct (value_of (map (fun f => (fst f, shown (snd f))) r3) n); [reflexivity|]. destruct (list_eq_dec ascii_dec name n); [reflexivity|]. reflexivity.
Qed.
(* A number that is infinite, or not a number, looks like NULL *)
Theorem c116_finite_refuted : forall r1 r2 name, encode_row (r1 ++ (name, NotFinite) :: r2) = encode_row (r1 ++ (name, Null) :: r2).
Proof. intros r1 r2 name. unfold encode_row. rewrite !map_app. reflexivity. Qed.

(* ---- C117 ---- *)
Lemma body_app a b : body_of (a ++ b) = body_of a ++ body_of b.
Proof. unfold body_of. apply flat_map_app. Qed.
Lemma body_rows s : succeeds s -> body_of s = batch_to_json (rows_of s).
Proof.
  induction s as [|e s IH]; intros S; [reflexivity|]. cbn [body_of rows_of flat_map]. change (flat_map (fun e => match e with Batch rows => batch_to_json rows | Failure m => m end) s) with (body_of s).
  change (flat_map (fun e => match e with Batch rows => rows | Failure _ => [] end) s) with (rows_of s). rewrite IH by (intros m I; apply (S m); right; exact I). destruct e as [rows|m]; [unfold batch_to_json; rewrite flat_map_app; reflexivity|].
  exfalso. apply (S m). left. reflexivity.
Qed.
(* A query that succeeds is answered by all of its rows, over both routes *)
Theorem c117_complete : forall s cc tag, succeeds s ->
  post_answer (Streamed s) = {| status := 200; etag := None; cache_control := None; body := batch_to_json (rows_of s) |} /\
  forall h, h <> Some tag -> get_answer cc tag h (Streamed s) = {| status := 200; etag := Some tag; cache_control := Some cc; body := batch_to_json (rows_of s) |}.
Proof.
  intros s cc tag S. cbn [post_answer]. rewrite (body_rows s S). split; [reflexivity|]. intros h N. unfold get_answer. destruct h as [t|]; [|rewrite (body_rows s S); reflexivity].
  destruct (list_eq_dec ascii_dec tag t) as [->|]; [contradiction|]. rewrite (body_rows s S). reflexivity.
Qed.
(* A query that cannot be planned or started is reported, and the report is not to be kept *)
Theorem c117_refused : forall e m cc tag h, h <> Some tag -> (400 <= status (post_answer (Refused e m)) < 600) /\ get_answer cc tag h (Refused e m) = post_answer (Refused e m) /\ cache_control (post_answer (Refused e m)) = None /\ body (post_answer (Refused e m)) = m.
Proof.
  intros e m cc tag h N. split; [destruct e; cbn; lia|]. split; [|split; reflexivity]. unfold get_answer. destruct h as [t|]; [|reflexivity]. destruct (list_eq_dec ascii_dec tag t) as [->|]; [contradiction|reflexivity].
Qed.
(* A query that fails while its rows are sent is answered as if it had succeeded: by the rows so far and the message of the error *)
Theorem c117_failed_refuted : forall s m s' cc tag, succeeds s ->
  let x := Streamed (s ++ Failure m :: s') in
  status (post_answer x) = 200 /\ exists rest, body (post_answer x) = batch_to_json (rows_of s) ++ m ++ rest /\ get_answer cc tag None x = {| status := 200; etag := Some tag; cache_control := Some cc; body := body (post_answer x) |}.
Proof.
  intros s m s' cc tag S. cbn [post_answer status body]. split; [reflexivity|]. exists (body_of s'). split; [rewrite body_app, (body_rows s S); reflexivity|reflexivity].
Qed.
(* ... and that answer is to be kept: who asks again with its ETag is told that it is still right, although the query would succeed now *)
Theorem c117_kept_refuted : forall s m s' cc tag good, succeeds good ->
  let bad := get_answer cc tag None (Streamed (s ++ Failure m :: s')) in cache_control bad = Some cc /\ exists t, etag bad = Some t /\ status (get_answer cc tag (Some t) (Streamed good)) = 304.
Proof.
  intros s m s' cc tag good S bad. split; [reflexivity|]. exists tag. split; [reflexivity|]. unfold get_answer. destruct (list_eq_dec ascii_dec tag tag); [reflexivity|contradiction].
Qed.

(* ---- C118 ---- *)
(* Faults of the request are never reported as faults of the server *)
Theorem c118_partial : forall e, ~ server_fault e -> 400 <= status_code e < 500.
Proof. intros e N. destruct e; cbn [status_code]; try lia. exfalso. apply N. exact Logic.I. Qed.
(* ... but faults of the server are, unless a temporary file cannot be written *)
Theorem c118_refuted : forall e, server_fault e -> e <> IoError -> status_code e = 400.
Proof. intros e F N. destruct e; cbn [server_fault] in F; try contradiction; reflexivity. Qed.

(* ---- C119 ---- *)
Lemma split_segment s r : ~ In "/"%char s -> split_slash (s ++ "/"%char :: r) = s :: split_slash r.
Proof.
  induction s as [|c s IH]; intros N; [reflexivity|]. cbn [app split_slash]. destruct (Ascii.eqb c "/") eqn:Q; [apply Ascii.eqb_eq in Q; exfalso; apply N; left; exact Q|]. rewrite IH by (intros I; apply N; right; exact I). reflexivity.
Qed.
Lemma split_last s : ~ In "/"%char s -> split_slash s = [s].
Proof.
  induction s as [|c s IH]; intros N; [reflexivity|]. cbn [split_slash]. destruct (Ascii.eqb c "/") eqn:Q; [apply Ascii.eqb_eq in Q; exfalso; apply N; left; exact Q|]. rewrite IH by (intros I; apply N; right; exact I). reflexivity.
Qed.
Lemma split_path x segments : Forall (fun s => ~ In "/"%char s) (x :: segments) -> split_slash (x ++ path_of segments) = x :: segments.
Proof.
  revert x. induction segments as [|y segments IH]; intros x F; inversion_clear F as [|? ? X F']; [cbn [path_of flat_map]; rewrite app_nil_r; apply split_last; exact X|].
  cbn [path_of flat_map app]. change (flat_map (fun s => "/"%char :: s) segments) with (path_of segments). rewrite split_segment by exact X. rewrite IH by exact F'. reflexivity.
Qed.
Lemma encoded_chars t c : In c (url_encode t) -> c <> "/"%char.
Proof.
  unfold url_encode. rewrite in_flat_map. intros (d & _ & I) ->. destruct (unreserved d) eqn:U; [destruct I as [->|[]]; discriminate|].
  destruct I as [E|[E|[E|[]]]]; [discriminate| |]; clear U; destruct d as [[] [] [] [] [] [] [] []]; discriminate.
Qed.
Lemma encoded_nonempty t : t <> [] -> url_encode t <> [].
Proof. destruct t as [|c t]; [congruence|]. intros _. cbn [url_encode flat_map]. destruct (unreserved c); discriminate. Qed.
Lemma encoded_plain t : Forall (fun c => unreserved c = true) t -> url_encode t = t.
Proof. intros F. induction F as [|c t U F IH]; [reflexivity|]. cbn [url_encode flat_map]. rewrite U. change (flat_map _ t) with (url_encode t). rewrite IH. reflexivity. Qed.
Lemma param_some t : t <> [] -> param t = true.
Proof. intros N. unfold param, is. destruct (list_eq_dec ascii_dec t (s_ "")) as [E|]; [contradiction|reflexivity]. Qed.
Lemma is_self s : is s (s_ s) = true.
Proof. unfold is. destruct (list_eq_dec ascii_dec (s_ s) (s_ s)); [reflexivity|contradiction]. Qed.
Lemma request_path m x segments : Forall (fun s => ~ In "/"%char s) (x :: segments) -> request m (path_of (x :: segments)) = match_route m (x :: segments).
Proof. intros F. cbn [path_of flat_map app request]. change (flat_map (fun s => "/"%char :: s) segments) with (path_of segments). change (Ascii.eqb "/" "/") with true. cbv iota. rewrite split_path by exact F. reflexivity. Qed.
(* What the server takes for the names in the paths of the documentation *)
Lemma encoded_noslash t : ~ In "/"%char (url_encode t).
Proof. intros I. exact (encoded_chars t _ I eq_refl). Qed.
Lemma literal_noslash (s : string) : existsb (Ascii.eqb "/") (s_ s) = false -> ~ In "/"%char (s_ s).
Proof. intros E I. assert (X : existsb (Ascii.eqb "/") (s_ s) = true) by (apply existsb_exists; exists "/"%char; split; [exact I|reflexivity]). congruence. Qed.
Lemma run_route d : d <> [] -> request Post (path_of [url_encode d; s_ "q"]) = RunQuery (url_encode d).
Proof.
  intros D. rewrite request_path by (repeat constructor; first [apply encoded_noslash | apply literal_noslash; reflexivity]). cbn [match_route]. rewrite (param_some _ (encoded_nonempty d D)), is_self. reflexivity.
Qed.
Lemma read_route d q : d <> [] -> q <> [] -> request Get (path_of [url_encode d; s_ "q"; url_encode q]) = ReadQuery (url_encode d) (url_encode q).
Proof.
  intros D Q. rewrite request_path by (repeat constructor; first [apply encoded_noslash | apply literal_noslash; reflexivity]). cbn [match_route]. rewrite (param_some _ (encoded_nonempty d D)), (param_some _ (encoded_nonempty q Q)), is_self. reflexivity.
Qed.
Lemma upload_route d s t : d <> [] -> s <> [] -> t <> [] -> request Post (path_of [url_encode d; s_ "upload"; url_encode s; url_encode t]) = Upload (url_encode d) (url_encode s) (url_encode t).
Proof.
  intros D S T. rewrite request_path by (repeat constructor; first [apply encoded_noslash | apply literal_noslash; reflexivity]). cbn [match_route]. rewrite (param_some _ (encoded_nonempty d D)), (param_some _ (encoded_nonempty s S)), (param_some _ (encoded_nonempty t T)), is_self. reflexivity.
Qed.
Lemma encoded_differs t : (exists c, In c t /\ unreserved c = false) -> length (url_encode t) > length t.
Proof.
  intros (c & I & U). assert (G : forall t, length t <= length (url_encode t)) by (clear; induction t as [|c t IH]; [apply Nat.le_refl|]; cbn [url_encode flat_map]; change (flat_map _ t) with (url_encode t); rewrite app_length; destruct (unreserved c); cbn [length]; lia).
  induction t as [|d t IH]; [destruct I|]. cbn [url_encode flat_map]. change (flat_map _ t) with (url_encode t). rewrite app_length. destruct I as [->|I].
  - rewrite U. cbn [length]. specialize (G t). lia.
  - specialize (IH I). destruct (unreserved d); cbn [length]; lia.
Qed.
(* Plain names: the database, schema and table are those that the path names; without a database it is the default one *)
Theorem c119_partial : forall d s t q, plain d -> plain s -> plain t -> q <> [] ->
  request Post (path_of [url_encode d; s_ "q"]) = RunQuery d /\ request Get (path_of [url_encode d; s_ "q"; url_encode q]) = ReadQuery d (url_encode q) /\
  request Post (path_of [url_encode d; s_ "upload"; url_encode s; url_encode t]) = Upload d s t /\
  request Post (path_of [s_ "q"]) = RunQuery default_db /\ request Get (path_of [s_ "q"; url_encode q]) = ReadQuery default_db (url_encode q) /\
  request Post (path_of [s_ "upload"; url_encode s; url_encode t]) = Upload default_db s t.
Proof.
  intros d s t q [Dn D] [Sn S] [Tn T] Q. rewrite run_route, read_route, upload_route by assumption. rewrite (encoded_plain d D), (encoded_plain s S), (encoded_plain t T). repeat (split; [reflexivity|]).
  split; [rewrite request_path by (repeat constructor; first [apply encoded_noslash | apply literal_noslash; reflexivity]); cbn [match_route]; rewrite is_self, (param_some _ (encoded_nonempty q Q)); reflexivity|].
  rewrite <- (encoded_plain s S), <- (encoded_plain t T). rewrite request_path by (repeat constructor; first [apply encoded_noslash | apply literal_noslash; reflexivity]). cbn [match_route].
  rewrite is_self, (param_some _ (encoded_nonempty s Sn)), (param_some _ (encoded_nonempty t Tn)). reflexivity.
Qed.
(* Other names are taken as they are encoded: another database is asked for, and another table is written *)
Theorem c119_encoded_refuted : forall d s t, d <> [] -> s <> [] -> t <> [] ->
  ((exists c, In c d /\ unreserved c = false) -> exists d', request Post (path_of [url_encode d; s_ "q"]) = RunQuery d' /\ d' <> d) /\
  ((exists c, In c t /\ unreserved c = false) -> exists d' s' t', request Post (path_of [url_encode d; s_ "upload"; url_encode s; url_encode t]) = Upload d' s' t' /\ t' <> t).
Proof.
  intros d s t D S T. split; intros X; pose proof (encoded_differs _ X) as L.
  - exists (url_encode d). split; [exact (run_route d D)|]. intros E. rewrite E in L. lia.
  - exists (url_encode d), (url_encode s), (url_encode t). split; [exact (upload_route d s t D S T)|]. intros E. rewrite E in L. lia.
Qed.

(* ---- Concrete cases ---- *)
Definition ex_row : list (list ascii * cell) := [(s_ "id", Number (s_ "-1.5e3")); (s_ "a""b", Text (s_ "x\y" ++ [newline; ascii_of_nat 1])); (s_ "n", Null); (s_ "f", Flag true)].
Example ex116_printable : printable ex_row /\ finite ex_row /\ NoDup (map fst ex_row).
Proof.
  split; [|split].
  - intros name t I. cbn in I. destruct I as [E|[E|[E|[E|[]]]]]; try discriminate E. injection E as <- <-. split; [discriminate|]. repeat constructor.
  - intros name I. cbn in I. destruct I as [E|[E|[E|[E|[]]]]]; discriminate E.
  - repeat constructor; cbn; intros I; repeat (destruct I as [I|I]; [discriminate I|]); exact I.
Qed.
Example ex116_text : encode_row [(s_ "a", Number (s_ "1")); (s_ "b", Text (s_ "x""y")); (s_ "c", NotFinite)] = s_ "{""a"":1,""b"":""x\""y"",""c"":null}" ++ [newline].
Proof. reflexivity. Qed.
Example ex116_join : exists o, read_lines (batch_to_json [[(s_ "id", Number (s_ "1")); (s_ "id", Number (s_ "2"))]]) = Some [o] /\ value_of o (s_ "id") = Some (JNumber (s_ "2")).
Proof. eexists. split; reflexivity. Qed.
Example ex117_failed : body (post_answer (Streamed [Batch [[(s_ "a", Number (s_ "1"))]]; Failure (s_ "Arrow error: Divide by zero error")])) = s_ "{""a"":1}" ++ [newline] ++ s_ "Arrow error: Divide by zero error".
Proof. reflexivity. Qed.
Example ex117_succeeds : succeeds [Batch [ex_row]; Batch []].
Proof. intros m I. cbn in I. destruct I as [E|[E|[]]]; discriminate E. Qed.
Example ex118_server : server_fault (DataFusionError ResourcesExhausted) /\ status_code (DataFusionError ResourcesExhausted) = 400 /\ ~ server_fault NotReadOnlyQuery.
Proof. split; [exact Logic.I|]. split; [reflexivity|]. intros F. exact F. Qed.
Example ex119_space : request Post (path_of [s_ "upload"; url_encode (s_ "public"); url_encode (s_ "my table")]) = Upload (s_ "default") (s_ "public") (s_ "my%20table") /\ plain (s_ "public") /\ exists c, In c (s_ "my table") /\ unreserved c = false.
Proof. split; [reflexivity|]. split; [split; [discriminate|repeat constructor]|]. exists " "%char. split; [cbn; tauto|reflexivity]. Qed.

Print Assumptions c116_rows.
Print Assumptions c116_partial.
Print Assumptions c116_duplicate_refuted.
Print Assumptions c116_finite_refuted.
Print Assumptions c117_complete.
Print Assumptions c117_refused.
Print Assumptions c117_failed_refuted.
Print Assumptions c117_kept_refuted.
Print Assumptions c118_partial.
Print Assumptions c118_refuted.
Print Assumptions c119_partial.
Print Assumptions c119_encoded_refuted.
