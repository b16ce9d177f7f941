(* C64 (ranges), C95 (locations), C96 (sizes) and C97 (http and https) of the object store for HTTP servers.
   Specification: RemoteSpec.v, model: RemoteModel.v. *)
From Coq Require Import Ascii String List Arith NArith Bool Lia.
From Verif Require Import HttpModel HttpSpec HttpProofs RemoteModel RemoteSpec RemoteProofs RemoteText.
Import ListNotations.
Open Scope list_scope.

(* ---- C64 ---- *)
(* The request selects the bytes from a to b, b excluded, as far as the file has them, whatever its length *)
Theorem c64_request checked a b : (a < b)%N -> exists h, range_request checked a b = Some h /\ forall len f l, (selects h len f l <-> (a < len)%N /\ f = a /\ l = N.min (b - 1) (len - 1)).
Proof.
  intros H. unfold range_request, minus_one. destruct (N.eqb_spec b 0); [lia|]. eexists. split; [reflexivity|]. intros len f l. split.
  - intros S. apply selects_request in S. tauto.
  - intros (L & -> & ->). apply from_to; [apply digits_numeral|apply digits_numeral|lia|exact L].
Qed.
(* What is returned is the body of a reply 206 to this request *)
Theorem c64_only_partial_content checked srv a b bs : get_range checked srv a b = Good bs ->
  exists h r, range_request checked a b = Some h /\ srv h = Answer r /\ status r = 206%N /\ body r = Some bs.
Proof.
  unfold get_range. destruct (range_request checked a b) as [h|]; [|discriminate]. unfold send. destruct (srv h) as [|r] eqn:R; [discriminate|].
  destruct ((400 <=? status r) && (status r <? 600))%N; [discriminate|]. destruct (N.eqb_spec (status r) 206) as [S|]; [|discriminate].
  destruct (body r) as [x|] eqn:B; [|discriminate]. intros E. injection E as ->. exists h, r. split; [reflexivity|]. split; [exact R|]. split; assumption.
Qed.
Lemma bytes_firstn f a b : (a < b)%N -> bytes f a (b - 1) = firstn (N.to_nat (b - a)) (skipn (N.to_nat a) f).
Proof. intros H. unfold bytes. replace (b - 1 + 1 - a)%N with (b - a)%N by lia. reflexivity. Qed.
(* With a server that follows the standard: the bytes asked for, and not more *)
Theorem c64_partial checked file srv a b bs : (a < b)%N -> serves file srv -> get_range checked srv a b = Good bs ->
  bs = firstn (N.to_nat (b - a)) (skipn (N.to_nat a) file) /\ (size_of bs <= b - a)%N.
Proof.
  intros H S G. apply c64_only_partial_content in G. destruct G as (h & r & Rq & An & St & Bo). destruct (S h r An St) as (f & l & Se & Bo' & _).
  destruct (c64_request checked a b H) as (h' & Rq' & Me). assert (h' = h) by congruence. subst h'. apply Me in Se. destruct Se as (L & -> & ->).
  assert (E : bs = bytes file a (N.min (b - 1) (size_of file - 1))) by congruence. rewrite (bytes_clip file a (b - 1) L), (bytes_firstn _ _ _ H) in E. split; [exact E|].
  rewrite E. unfold size_of. rewrite firstn_length. lia.
Qed.
(* ... and such a server's reply is accepted *)
Theorem c64_answered checked srv a b h r bs : range_request checked a b = Some h -> srv h = Answer r -> status r = 206%N -> body r = Some bs -> get_range checked srv a b = Good bs.
Proof. intros R A S B. unfold get_range. rewrite R, A. unfold send. rewrite S. cbn. rewrite S. cbn. rewrite B. reflexivity. Qed.
(* The reply itself is not checked: any number of any bytes is taken for the range *)
Theorem c64_length_refuted checked a b bs : (a < b)%N -> exists srv, get_range checked srv a b = Good bs.
Proof.
  intros H. exists (fun _ => Answer {| status := 206; content_range := Missing; content_length := Missing; accept_ranges := Missing; etag := Missing; date_ok := true; body := Some bs |}).
  destruct (c64_request checked a b H) as (h & R & _). eapply c64_answered; [exact R|reflexivity|reflexivity|reflexivity].
Qed.
(* The empty range at 0: a debug build panics, a release build asks for the whole file *)
Theorem c64_nothing_refuted file srv bs : serves file srv -> (size_of file <= max64)%N -> get_range false srv 0 0 = Good bs -> bs = file.
Proof.
  intros S L G. apply c64_only_partial_content in G. destruct G as (h & r & Rq & An & St & Bo). destruct (S h r An St) as (f & l & Se & Bo' & _).
  unfold range_request, minus_one in Rq. cbn [N.eqb] in Rq. assert (Hh : h = s_ "bytes=" ++ digits 0 ++ s_ "-" ++ digits max64) by congruence. rewrite Hh in Se. apply selects_request in Se. destruct Se as (_ & P & -> & ->).
  assert (E : bs = bytes file 0 (N.min max64 (size_of file - 1))) by congruence. rewrite N.min_r in E by lia. rewrite E. unfold bytes. cbn [N.to_nat skipn]. apply firstn_all2.
  unfold size_of in *. lia.
Qed.
Theorem c64_nothing_panic_refuted srv a : get_range true srv a 0 = Panic.
Proof. reflexivity. Qed.
(* Another empty range is not a range: such a request selects nothing in any file *)
Theorem c64_empty_refuted checked a h len f l : (0 < a)%N -> range_request checked a a = Some h -> ~ selects h len f l.
Proof.
  intros P R S. unfold range_request, minus_one in R. destruct (N.eqb_spec a 0); [lia|]. injection R as <-. apply selects_request in S. lia.
Qed.

(* Reading with options *)
Lemma get_opts_good checked srv g x : get_opts checked srv (Some g) = Good x -> exists h r t, show_range checked g = Some h /\ srv (Some h) = Answer r /\ (status r <> 416)%N /\
  content_range r = Text t /\ parse_content_range checked t = Range (fst (range x)) (snd (range x)) (size x) /\ payload x = body r.
Proof.
  unfold get_opts. destruct (show_range checked g) as [h|]; [|discriminate]. unfold send. destruct (srv (Some h)) as [|r] eqn:A; [discriminate|].
  destruct ((400 <=? status r) && (status r <? 600))%N eqn:St; [discriminate|]. assert (N416 : (status r <> 416)%N) by (intros E; rewrite E in St; discriminate). destruct (header_meta r); [|discriminate]. destruct (content_range r) as [| |t] eqn:C; try discriminate.
  destruct (parse_content_range checked t) as [| |s e n'] eqn:P; try discriminate. intros E. injection E as <-. exists h, r, t. cbn [range size payload fst snd]. auto 10.
Qed.
(* With a server that follows the standard: the selected bytes, their positions and the size of the file *)
Theorem c64_opts_partial checked file srv g x : serves file (fun h => srv (Some h)) -> tidy (fun h => srv (Some h)) -> (size_of file <= max64)%N ->
  get_opts checked srv (Some g) = Good x ->
  exists first last, (match g with
                      | Bounded a b => (a < b)%N -> first = a /\ last = N.min b (size_of file)
                      | Offset a => first = a /\ last = size_of file
                      | Suffix n => last = size_of file /\ first = (size_of file - N.min n (size_of file))%N
                      end) /\
    range x = (first, last) /\ size x = size_of file /\ payload x = Some (firstn (N.to_nat (last - first)) (skipn (N.to_nat first) file)).
Proof.
  intros S Q L G. apply get_opts_good in G. destruct G as (h & r & t & Sh & An & N416 & Cr & Pa & Pl). assert (P206 : status r = 206%N) by (destruct (Q h r t An Cr); [assumption|contradiction]). destruct (S h r An P206) as (f & l & Se & Bo & t' & Cr' & CR).
  assert (t' = t) by congruence. subst t'. assert (FL : (f <= l /\ l < size_of file)%N) by (destruct Se; lia).
  assert (P' : parse_content_range checked t = Range f (l + 1) (size_of file)) by (apply parse_content_range_of; [exact CR|lia|lia|exact L]).
  rewrite P' in Pa. injection Pa as E1 E2 E3. destruct x as [[rf rl] sz pl]. cbn [fst snd range size payload] in *. subst rf rl sz.
  exists f, (l + 1)%N. split; [|split; [reflexivity|split; [reflexivity|]]].
  - destruct g as [a b|a|n]; cbn [show_range] in Sh.
    + intros H. unfold range_request, minus_one in Sh. destruct (N.eqb_spec b 0); [lia|]. injection Sh as <-. apply selects_request in Se. destruct Se as (_ & P & -> & ->). split; [reflexivity|lia].
    + injection Sh as <-. apply selects_offset in Se. destruct Se as (P & -> & ->). split; [reflexivity|lia].
    + injection Sh as <-. apply selects_suffix in Se. destruct Se as (_ & P & -> & ->). split; [lia|reflexivity].
  - rewrite Pl, Bo. reflexivity.
Qed.
(* The range that was asked for is not compared with the range of the reply: any answer is taken *)
Theorem c64_opts_refuted checked a b f l n bs t : (a < b)%N -> (f <= max64)%N -> (l < max64)%N -> (n <= max64)%N -> content_range_of t f l n ->
  exists srv, get_opts checked srv (Some (Bounded a b)) = Good {| range := (f, (l + 1)%N); size := n; payload := Some bs |}.
Proof.
  intros H BF BL BN C. exists (fun _ => Answer {| status := 200; content_range := Text t; content_length := Text (s_ "0"); accept_ranges := Missing; etag := Missing; date_ok := true; body := Some bs |}).
  unfold get_opts. destruct (c64_request checked a b H) as (h & R & _). cbn [show_range]. rewrite R. unfold send. cbn [status]. cbn [andb N.leb N.compare Pos.compare Pos.compare_cont].
  unfold header_meta. cbn [date_ok etag content_length negb]. change (parse_number (s_ "0")) with (Some 0%N). cbn [content_range]. rewrite (parse_content_range_of checked t f l n C BF BL BN). reflexivity.
Qed.

(* ---- C96 ---- *)
(* HEAD: the size is the announced length, of a server that accepts ranges *)
Theorem c96_head x srv t n : status x = 200%N -> content_length x = Text t -> numeral t n -> (n <= max64)%N -> accept_ranges x = Text (s_ "bytes") -> head (Answer x) srv = Good n.
Proof. intros S C N B A. unfold head, send. rewrite S. cbn. rewrite C, (parse_numeral t n N B), A. reflexivity. Qed.
Lemma parse_number_numeral t n m : numeral t n -> parse_number t = Some m -> m = n.
Proof.
  intros T P. unfold parse_number in P. destruct t as [|c r]; [discriminate|].
  destruct (Ascii.eqb_spec c "+") as [->|]; [exfalso; exact (numeral_chars _ _ _ T (or_introl eq_refl) eq_refl)|]. rewrite (numeral_fold _ _ T) in P.
  destruct (n <=? max64)%N; [|discriminate]. congruence.
Qed.
(* A whole file is returned as it is *)
Theorem c64_whole checked file srv x : serves_whole file (srv None) -> get_opts checked srv None = Good x -> range x = (0%N, size_of file) /\ size x = size_of file /\ payload x = Some file.
Proof.
  intros S G. unfold get_opts, send in G. destruct (srv None) as [|r] eqn:A; [discriminate|]. destruct ((400 <=? status r) && (status r <? 600))%N eqn:St; [discriminate|].
  destruct (S r eq_refl) as [[L H]|(B & t & C & N)]; [exfalso; apply andb_false_iff in St; destruct St as [St|St]; [apply N.leb_gt in St|apply N.ltb_ge in St]; lia|].
  unfold header_meta in G. rewrite C in G. destruct (negb (date_ok r)); [discriminate|]. destruct (etag r); try discriminate; (destruct (parse_number t) as [m|] eqn:P; [|discriminate]; pose proof (parse_number_numeral t (size_of file) m N P) as ->; injection G as <-; repeat apply conj; [reflexivity|reflexivity|exact B]).
Qed.
(* What an answer says about the file is used or refused, never replaced *)
Theorem c64_headers checked srv g x : get_opts checked srv g = Good x -> exists h r t, srv h = Answer r /\ (h = None <-> g = None) /\ date_ok r = true /\ etag r <> Unreadable /\ content_length r = Text t /\ parse_number t <> None.
Proof.
  intros G. unfold get_opts in G. assert (Q : exists h, (match g with None => Some None | Some g => match show_range checked g with Some h => Some (Some h) | None => None end end) = Some h /\ (h = None <-> g = None)).
  { destruct g as [g|]; [|exists None; split; [reflexivity|tauto]]. destruct (show_range checked g) as [h|]; [|discriminate]. exists (Some h). split; [reflexivity|]. split; discriminate. }
  destruct Q as (h & E & I). rewrite E in G. unfold send in G. destruct (srv h) as [|r] eqn:A; [discriminate|]. destruct ((400 <=? status r) && (status r <? 600))%N; [discriminate|].
  destruct (header_meta r) as [n|] eqn:M; [|discriminate]. unfold header_meta in M. destruct (date_ok r) eqn:D; [|discriminate]. cbn [negb] in M. exists h, r.
  destruct (etag r) eqn:Et; try discriminate; (destruct (content_length r) as [| |u] eqn:C; try discriminate; exists u; repeat apply conj; [exact A|tauto|tauto|assumption|congruence|assumption || reflexivity|congruence]).
Qed.
Theorem c96_announced x srv n t m : status x <> 403%N -> head (Answer x) srv = Good n -> content_length x = Text t -> numeral t m ->
  n = m /\ (status x < 400 \/ 600 <= status x)%N /\ exists a, accept_ranges x = Text a /\ map lower_ascii a = s_ "bytes".
Proof.
  intros S H C M. unfold head in H. destruct (N.eqb_spec (status x) 403); [contradiction|]. unfold send in H.
  destruct (N.leb_spec 400 (status x)), (N.ltb_spec (status x) 600); cbn [andb] in H; try discriminate; rewrite C in H;
    (destruct (parse_number t) as [n'|] eqn:P; [|discriminate]; destruct (accept_ranges x) as [| |a]; try discriminate; destruct (teqb (map lower_ascii a) (s_ "bytes")) eqn:T; [|discriminate];
     injection H as <-; split; [exact (parse_number_numeral t m n' M P)|]; split; [lia|]; exists a; split; [reflexivity|]; apply teqb_eq; exact T).
Qed.
(* Where HEAD is forbidden: the size of the file, from a range request *)
Theorem c96_via_get_partial file srv n : serves file srv -> tidy srv -> head_via_get srv = Good n -> n = size_of file.
Proof.
  intros S T H. unfold head_via_get, send in H. destruct (srv (s_ "bytes=0-0")) as [|r] eqn:A; [discriminate|].
  destruct ((400 <=? status r) && (status r <? 600))%N eqn:St; [discriminate|]. destruct (content_range r) as [| |t] eqn:C; try discriminate.
  destruct (T _ r t A C) as [E|E]; [|rewrite E in St; discriminate]. destruct (S _ r A E) as (f & l & _ & _ & t' & C' & (tf & tl & tn & F & L & N & ->)).
  assert (X : t = s_ "bytes " ++ tf ++ s_ "-" ++ tl ++ s_ "/" ++ tn) by congruence. rewrite X in H. clear X. rewrite (group4_size tf f tl l tn _ F L N) in H.
  destruct (parse_number tn) as [m|] eqn:P; [|discriminate]. injection H as <-. exact (parse_number_numeral tn _ m N P).
Qed.
(* A reply that does not tell the size crashes the request *)
Theorem c96_panic_refuted srv r tf f tl l : srv (s_ "bytes=0-0") = Answer r -> status r = 206%N -> numeral tf f -> numeral tl l -> content_range r = Text (s_ "bytes " ++ tf ++ s_ "-" ++ tl) ->
  head_via_get srv = Panic.
Proof. intros A S F L C. unfold head_via_get, send. rewrite A, S. cbn [andb N.leb N.compare Pos.compare Pos.compare_cont]. rewrite C, (group4_no_size tf f tl l F L). reflexivity. Qed.
(* ... while an unknown size is an error *)
Theorem c96_unknown_size srv r tf f tl l : srv (s_ "bytes=0-0") = Answer r -> numeral tf f -> numeral tl l -> content_range r = Text (s_ "bytes " ++ tf ++ s_ "-" ++ tl ++ s_ "/*") -> head_via_get srv = Bad.
Proof.
  intros A F L C. unfold head_via_get, send. rewrite A. destruct ((400 <=? status r) && (status r <? 600))%N; [reflexivity|]. rewrite C, (group4_star tf f tl l F L). reflexivity.
Qed.
(* An empty file has no first byte: where HEAD is forbidden it cannot be read *)
Theorem c96_empty_refuted srv x n : serves [] srv -> tidy srv -> status x = 403%N -> head (Answer x) srv <> Good n.
Proof.
  intros S T E H. unfold head in H. rewrite E in H. cbn [N.eqb Pos.eqb] in H. unfold head_via_get, send in H. destruct (srv (s_ "bytes=0-0")) as [|r] eqn:A; [discriminate|].
  destruct ((400 <=? status r) && (status r <? 600))%N eqn:St; [discriminate|]. destruct (content_range r) as [| |t] eqn:C; try discriminate.
  destruct (T _ r t A C) as [F|F]; [|rewrite F in St; discriminate]. destruct (S _ r A F) as (f & l & Se & _). change (size_of []) with 0%N in Se.
  remember 0%N as len. destruct Se; lia.
Qed.

(* ---- C95 ---- *)
Lemma encode_decode l : percent_decode (s_ "/" ++ encode l) = "/"%char :: l.
Proof.
  change (percent_decode (s_ "/" ++ encode l)) with ("/"%char :: percent_decode (percent_encode l)). f_equal. apply encodes_decode, percent_encode_encodes.
Qed.
Definition url (s : scheme) (l : list ascii) : list ascii := s_ (match s with Http => "http://" | Https => "https://" end) ++ l.
Lemma prepare s l : try_prepare_http_url (url s l) = Some (s, s_ "/" ++ encode l).
Proof. unfold try_prepare_http_url, url. destruct s; [rewrite strip_prefix_app; reflexivity|]. reflexivity. Qed.
Lemma url_text s d : scheme_text s ++ s_ "://" ++ d = url s d.
Proof. destruct s; reflexivity. Qed.
Lemma requested_url s l : requested (url s l) = Some (if negb (utf8 l) then Bad else
  match l with [] => Good (url s []) | _ => let p := strip_suffix_slash l in if forallb segment_ok (split "/" p) then get_uri s p else Bad end).
Proof.
  unfold requested. rewrite prepare. unfold from_url_path. rewrite encode_decode. change (utf8 ("/"%char :: l)) with (utf8 l). destruct (utf8 l); [|reflexivity]. cbn [negb].
  change (Ascii.eqb "/" "/") with true. cbv iota. destruct l as [|c l]; [|].
  - unfold get_uri. cbn [percent_decode utf8]. rewrite url_text. reflexivity.
  - cbv zeta. destruct (forallb segment_ok (split "/" (strip_suffix_slash (c :: l)))); reflexivity.
Qed.
Lemma strip_suffix_cases l : strip_suffix_slash l = l /\ (forall r, l <> r ++ s_ "/") \/ l = strip_suffix_slash l ++ s_ "/".
Proof.
  unfold strip_suffix_slash. destruct (rev l) as [|c r] eqn:R.
  - left. split; [reflexivity|]. intros r E. apply (f_equal (@rev ascii)) in E. rewrite R, rev_app_distr in E. discriminate.
  - apply (f_equal (@rev ascii)) in R. rewrite rev_involutive in R. cbn [rev] in R. destruct (Ascii.eqb_spec c "/") as [->|N]; [right; exact R|]. left. split; [reflexivity|].
    intros r' E. rewrite R in E. apply app_inj_tail in E. destruct E. congruence.
Qed.
Lemma split_ne c t : split c t <> [].
Proof. destruct t as [|x t]; [discriminate|]. cbn [split]. destruct (Ascii.eqb x c); [discriminate|]. destruct (split c t); discriminate. Qed.
Lemma split_app c u : forall v, split c (u ++ c :: v) = split c u ++ split c v.
Proof.
  induction u as [|x u IH]; intros v; cbn [app split]; [rewrite Ascii.eqb_refl; reflexivity|]. rewrite IH. destruct (Ascii.eqb x c); [reflexivity|].
  destruct (split c u) as [|s ss] eqn:E; [exfalso; exact (split_ne c u E)|]. reflexivity.
Qed.
Lemma split_single c s : ~ In c s -> split c s = [s].
Proof.
  induction s as [|x s IH]; intros N; [reflexivity|]. cbn [split]. destruct (Ascii.eqb_spec x c) as [->|_]; [exfalso; apply N; left; reflexivity|]. rewrite IH; [reflexivity|]. intros I. apply N. right; exact I.
Qed.
Lemma split_join ss : ss <> [] -> Forall (fun s => ~ In "/"%char s) ss -> split "/" (join ss) = ss.
Proof.
  induction ss as [|s ss IH]; intros N F; [congruence|]. inversion F as [|? ? A B]; subst. destruct ss as [|s' ss]; [apply split_single; exact A|].
  change (join (s :: s' :: ss)) with (s ++ "/"%char :: join (s' :: ss)). rewrite split_app, (split_single _ _ A), IH; [reflexivity|discriminate|exact B].
Qed.
Lemma decode_plain t : ~ In "%"%char t -> percent_decode t = t.
Proof.
  induction t as [|c t IH]; intros N; [reflexivity|]. cbn [percent_decode]. destruct (Ascii.eqb_spec c percent) as [->|_]; [exfalso; apply N; left; reflexivity|].
  rewrite IH; [reflexivity|]. intros I. apply N. right; exact I.
Qed.
Lemma join_in ss c : In c (join ss) -> c = "/"%char \/ exists s, In s ss /\ In c s.
Proof.
  induction ss as [|s ss IH]; [intros []|]. destruct ss as [|s' ss]; [intros I; right; exists s; split; [left; reflexivity|exact I]|].
  change (join (s :: s' :: ss)) with (s ++ "/"%char :: join (s' :: ss)). intros I. apply in_app_iff in I. destruct I as [I|[I|I]]; [right; exists s; split; [left; reflexivity|exact I]|left; congruence|].
  destruct (IH I) as [E|(x & Ix & Ic)]; [left; exact E|right; exists x; split; [right; exact Ix|exact Ic]].
Qed.
Lemma join_last ss : ss <> [] -> Forall plain_segment ss -> exists t c, join ss = t ++ [c] /\ c <> "/"%char.
Proof.
  induction ss as [|s ss IH]; intros N F; [congruence|]. inversion F as [|? ? A B]; subst. destruct ss as [|s' ss].
  - destruct A as (Ne & _ & _ & Ch). destruct (exists_last Ne) as (t & c & ->). exists t, c. split; [reflexivity|]. apply Ch. apply in_app_iff. right; left; reflexivity.
  - destruct IH as (t & c & E & C); [discriminate|exact B|]. exists (s ++ "/"%char :: t), c. split; [|exact C].
    change (join (s :: s' :: ss)) with (s ++ "/"%char :: join (s' :: ss)). rewrite E, <- app_assoc. reflexivity.
Qed.
Lemma plain_ok s : plain_segment s -> segment_ok s = true.
Proof.
  intros (N & D1 & D2 & Ch). unfold segment_ok. apply negb_true_iff. rewrite !orb_false_iff.
  assert (T : forall x, s <> x -> teqb s x = false) by (intros x X; destruct (teqb s x) eqn:E; [exfalso; apply X; apply teqb_eq; exact E|reflexivity]).
  repeat apply conj; [exact (T _ N)|exact (T _ D1)|exact (T _ D2)|]. destruct (existsb control s) eqn:E; [|reflexivity]. apply existsb_exists in E. destruct E as (c & I & C).
  destruct (Ch c I) as (_ & _ & L & X). unfold control in C. apply orb_true_iff in C. destruct C as [C|C]; [apply Nat.ltb_lt in C; lia|apply Nat.eqb_eq in C; contradiction].
Qed.
(* Ordinary locations: the URL that is asked for is the one that was written *)
Theorem c95_partial s segments : segments <> [] -> Forall plain_segment segments -> unicode (join segments) -> requested (url s (join segments)) = Some (Good (url s (join segments))).
Proof.
  intros N F U. apply utf8_unicode in U. rewrite requested_url, U. cbn [negb]. destruct (join_last segments N F) as (t & c & E & C).
  destruct (strip_suffix_cases (join segments)) as [[S _]|S]; [|exfalso; rewrite E in S; apply app_inj_tail in S; destruct S; congruence].
  destruct (join segments) as [|x l] eqn:J; [destruct t; discriminate|]. cbv zeta. rewrite S, <- J. rewrite split_join.
  - assert (A : forallb segment_ok segments = true) by (apply forallb_forall; intros y Y; apply plain_ok; rewrite Forall_forall in F; exact (F y Y)). rewrite A.
    unfold get_uri. rewrite decode_plain; [rewrite J, U, url_text; reflexivity|]. intros I. apply join_in in I. destruct I as [I|(y & Y & I)]; [discriminate|].
    rewrite Forall_forall in F. destruct (F y Y) as (_ & _ & _ & Ch). destruct (Ch _ I) as (_ & X & _). apply X. reflexivity.
  - exact N.
  - rewrite Forall_forall in *. intros y Y I. destruct (F y Y) as (_ & _ & _ & Ch). destruct (Ch _ I) as (X & _). apply X. reflexivity.
Qed.
(* In general: the escapes are resolved and a final slash is lost *)
Theorem c95_exact s l u : requested (url s l) = Some (Good u) -> exists p, (l = p /\ (forall r, l <> r ++ s_ "/") \/ l = p ++ s_ "/") /\ u = url s (percent_decode p).
Proof.
  rewrite requested_url. destruct (utf8 l); [|discriminate]. cbn [negb]. destruct l as [|c l].
  - intros E. injection E as <-. exists []. split; [left; split; [reflexivity|intros [|? ?]; discriminate]|reflexivity].
  - cbv zeta. set (p := strip_suffix_slash (c :: l)). destruct (forallb segment_ok (split "/" p)); [|discriminate]. unfold get_uri. destruct (utf8 (percent_decode p)); [|discriminate].
    intros E. rewrite url_text in E. injection E as <-. exists p. split; [|reflexivity]. destruct (strip_suffix_cases (c :: l)) as [[S X]|S]; [left; split; [symmetry; exact S|exact X]|right; exact S].
Qed.
Lemma decode_length_n n : forall t, List.length t <= n -> List.length (percent_decode t) <= List.length t.
Proof.
  induction n as [|n IH]; intros [|c t] L; [cbn; lia|cbn in L; lia|cbn; lia|]. cbn [List.length] in L. cbn [percent_decode].
  assert (D : List.length (c :: percent_decode t) <= List.length (c :: t)) by (cbn [List.length]; specialize (IH t); lia).
  destruct (Ascii.eqb c percent); [|exact D]. destruct t as [|a [|b t]]; [exact D|exact D|]. destruct (hex_value a); [|exact D]. destruct (hex_value b); [|exact D].
  cbn [List.length] in *. specialize (IH t). lia.
Qed.
Lemma decode_length t : List.length (percent_decode t) <= List.length t.
Proof. exact (decode_length_n _ t (Nat.le_refl _)). Qed.
Lemma decode_shorter_n n : forall u a b v, List.length u <= n -> hex_value a <> None -> hex_value b <> None ->
  List.length (percent_decode (u ++ "%"%char :: a :: b :: v)) < List.length (u ++ "%"%char :: a :: b :: v).
Proof.
  induction n as [|n IH]; intros u a b v L A B.
  - destruct u; [|cbn in L; lia]. cbn [app percent_decode]. change (Ascii.eqb "%" percent) with true. cbv iota. destruct (hex_value a); [|congruence]. destruct (hex_value b); [|congruence].
    cbn [List.length]. pose proof (decode_length v). lia.
  - destruct u as [|c u]; [apply (IH [] a b v); [cbn; lia|exact A|exact B]|]. cbn [List.length] in L.
    assert (D : List.length (c :: percent_decode (u ++ "%"%char :: a :: b :: v)) < List.length ((c :: u) ++ "%"%char :: a :: b :: v)).
    { cbn [List.length app]. specialize (IH u a b v). assert (List.length u <= n) by lia. specialize (IH H A B). lia. }
    change ((c :: u) ++ "%"%char :: a :: b :: v) with (c :: (u ++ "%"%char :: a :: b :: v)) in *. cbn [percent_decode]. destruct (Ascii.eqb c percent); [|exact D].
    destruct u as [|x [|y u]].
    + cbn [app] in *. change (hex_value "%"%char) with (@None nat). exact D.
    + cbn [app] in *. destruct (hex_value x); [|exact D]. change (hex_value "%"%char) with (@None nat). exact D.
    + cbn [app] in *. destruct (hex_value x); [|exact D]. destruct (hex_value y); [|exact D]. cbn [List.length] in *. specialize (IH u a b v). assert (List.length u <= n) by lia. specialize (IH H A B). lia.
Qed.
Lemma escape_digit c : In c (list_ascii_of_string "0123456789abcdefABCDEF") -> hex_value c <> None.
Proof. intros I. vm_compute in I. repeat (destruct I as [<-|I]; [vm_compute; discriminate|]). destruct I. Qed.
Lemma decode_shorter t : has_escape t -> List.length (percent_decode t) < List.length t.
Proof. intros (u & a & b & v & -> & A & B). exact (decode_shorter_n _ u a b v (Nat.le_refl _) (escape_digit a A) (escape_digit b B)). Qed.
Lemma url_length s l : List.length (url s l) = List.length (url s []) + List.length l.
Proof. unfold url. rewrite !app_length. cbn [List.length]. lia. Qed.
(* A URL with an escape, such as a presigned one, is never the one that is asked for *)
Theorem c95_escape_refuted s l u : has_escape l -> requested (url s l) = Some (Good u) -> u <> url s l.
Proof.
  intros H R. apply c95_exact in R. destruct R as (p & C & ->). intros E. apply (f_equal (@List.length ascii)) in E. rewrite (url_length s (percent_decode p)), (url_length s l) in E.
  destruct C as [[-> _]| ->]; [pose proof (decode_shorter p H); lia|]. rewrite app_length in E. cbn [List.length s_ list_ascii_of_string] in E. pose proof (decode_length p). lia.
Qed.
(* Nor is one that ends with a slash *)
Theorem c95_slash_refuted s l u : requested (url s (l ++ s_ "/")) = Some (Good u) -> u <> url s (l ++ s_ "/").
Proof.
  intros R. apply c95_exact in R. destruct R as (p & C & ->). destruct C as [[_ X]|C]; [exfalso; exact (X l eq_refl)|]. apply app_inj_tail in C. destruct C as [<- _].
  intros E. apply (f_equal (@List.length ascii)) in E. rewrite (url_length s (percent_decode l)), (url_length s (l ++ _)), app_length in E. cbn [List.length s_ list_ascii_of_string] in E.
  pose proof (decode_length l). lia.
Qed.
(* A URL with two slashes in a row is refused *)
Theorem c95_double_slash_refuted s u v : requested (url s (u ++ s_ "//" ++ v)) = Some Bad.
Proof.
  rewrite requested_url. destruct (utf8 (u ++ s_ "//" ++ v)); [|reflexivity]. cbn [negb]. change (s_ "//" ++ v) with ("/"%char :: "/"%char :: v).
  assert (I : In [] (split "/" (strip_suffix_slash (u ++ "/"%char :: "/"%char :: v)))).
  { destruct (strip_suffix_cases (u ++ "/"%char :: "/"%char :: v)) as [[-> _]|S].
    - rewrite split_app. apply in_app_iff. right. left. reflexivity.
    - destruct v as [|x v] using rev_ind.
      + replace (u ++ ["/"%char; "/"%char]) with ((u ++ s_ "/") ++ s_ "/") in S by (rewrite <- app_assoc; reflexivity). apply app_inj_tail in S. destruct S as [S _].
        replace (u ++ ["/"%char; "/"%char]) with ((u ++ s_ "/") ++ s_ "/") by (rewrite <- app_assoc; reflexivity). rewrite <- S.
        change (u ++ s_ "/") with (u ++ "/"%char :: []). rewrite split_app. apply in_app_iff. right; left; reflexivity.
      + clear IHv. replace (u ++ "/"%char :: "/"%char :: v ++ [x]) with ((u ++ "/"%char :: "/"%char :: v) ++ [x]) in * by (rewrite <- app_assoc; reflexivity).
        apply app_inj_tail in S. destruct S as [S _]. rewrite <- S. rewrite split_app. apply in_app_iff. right; left; reflexivity. }
  destruct (u ++ "/"%char :: "/"%char :: v) as [|c l] eqn:L; [destruct u; discriminate|]. cbv zeta. destruct (forallb segment_ok (split "/" (strip_suffix_slash (c :: l)))) eqn:F; [|reflexivity].
  rewrite forallb_forall in F. discriminate (F _ I).
Qed.
(* Escapes of bytes that are not text crash the request *)
Theorem c95_panic_refuted s segments : segments <> [] -> Forall (fun x => segment_ok x = true /\ ~ In "/"%char x) segments -> unicode (join segments) -> ~ unicode (percent_decode (join segments)) ->
  requested (url s (join segments)) = Some Panic.
Proof.
  intros N F U D. apply utf8_unicode in U. rewrite <- utf8_unicode, not_true_iff_false in D. rewrite requested_url, U. cbn [negb].
  assert (F1 : Forall (fun x => ~ In "/"%char x) segments) by (apply (Forall_impl _ (fun x (H : segment_ok x = true /\ ~ In "/"%char x) => proj2 H) F)).
  assert (A : forallb segment_ok segments = true) by (apply forallb_forall; intros y Y; rewrite Forall_forall in F; exact (proj1 (F y Y))).
  pose proof (split_join segments N F1) as Sp.
  assert (St : strip_suffix_slash (join segments) = join segments).
  { destruct (strip_suffix_cases (join segments)) as [[S _]|S]; [exact S|]. exfalso. rewrite S in Sp. change (strip_suffix_slash (join segments) ++ s_ "/") with (strip_suffix_slash (join segments) ++ "/"%char :: []) in Sp.
    rewrite split_app in Sp. change (split "/" []) with [@nil ascii] in Sp. assert (I : In [] segments) by (rewrite <- Sp; apply in_app_iff; right; left; reflexivity).
    rewrite forallb_forall in A. discriminate (A _ I). }
  destruct (join segments) as [|c l] eqn:J; [rewrite <- Sp in A; discriminate|]. cbv zeta. rewrite St, Sp, A. unfold get_uri. rewrite D. reflexivity.
Qed.

(* ---- C97 ---- *)
Section C97.
  Variable net : scheme -> list ascii -> nat -> list ascii.
  (* As long as one scheme is used, every chunk is the server's *)
  Theorem c97_partial s l p k : (forall q, In q l -> fst (fst q) = s) -> snd (read_chunk net (reads net [] l) s p k) = net s p k.
  Proof.
    intros A. assert (G : forall c, (forall e, In e c -> snd e = net s (fst (fst e)) (snd (fst e))) -> forall e, In e (reads net c l) -> snd e = net s (fst (fst e)) (snd (fst e))).
    { induction l as [|q l IH]; intros c C e I; [exact (C e I)|]. cbn [reads fold_left] in I. apply (IH (fun x X => A x (or_intror X)) _) with (2 := I). clear e I. intros e I. unfold read_chunk in I.
      destruct (lookup c (snd (fst q)) (snd q)); cbn [fst] in I; [exact (C e I)|]. destruct I as [<-|I]; [|exact (C e I)]. cbn [fst snd]. rewrite (A q (or_introl eq_refl)). reflexivity. }
    unfold read_chunk. destruct (lookup (reads net [] l) p k) as [bs|] eqn:L; [|reflexivity]. cbn [snd]. unfold lookup in L.
    destruct (List.find _ (reads net [] l)) as [e|] eqn:F; [|discriminate]. injection L as <-. apply find_some in F. destruct F as [I M]. apply andb_true_iff in M. destruct M as [M1 M2].
    apply teqb_eq in M1. apply Nat.eqb_eq in M2. rewrite (G [] (fun e (X : In e []) => match X with end) e I), M1, M2. reflexivity.
  Qed.
  (* What was read by one scheme is served for the other *)
  Theorem c97_refuted s s' p k : snd (read_chunk net (fst (read_chunk net [] s p k)) s' p k) = net s p k.
  Proof.
    unfold read_chunk at 2. cbn [lookup List.find fst]. unfold read_chunk, lookup. cbn [List.find fst snd]. assert (T : teqb p p = true) by (apply teqb_eq; reflexivity).
    rewrite T, Nat.eqb_refl. reflexivity.
  Qed.
End C97.

(* ---- The hypotheses are met ---- *)
Definition a_file : list ascii := s_ "0123456789".
Definition reply_with (first last : string) (bs : string) : response :=
  {| status := 206; content_range := Text (s_ ("bytes " ++ first ++ "-" ++ last ++ "/10")); content_length := Text (s_ "4"); accept_ranges := Text (s_ "bytes"); etag := Missing; date_ok := true; body := Some (s_ bs) |}.
Definition a_server (h : list ascii) : reply := if teqb h (s_ "bytes=2-5") then Answer (reply_with "2" "5" "2345") else if teqb h (s_ "bytes=0-0") then Answer (reply_with "0" "0" "0") else NoReply.
Lemma num1 : numeral (s_ "2") 2. Proof. apply (one_digit 2). reflexivity. Qed.
Lemma num5 : numeral (s_ "5") 5. Proof. apply (one_digit 5). reflexivity. Qed.
Lemma num0 : numeral (s_ "0") 0. Proof. apply (one_digit 0). reflexivity. Qed.
Lemma num10 : numeral (s_ "10") 10. Proof. apply (more_digits (s_ "1") 1 0); [apply (one_digit 1); reflexivity|reflexivity]. Qed.
Example c64_example : serves a_file a_server /\ tidy a_server /\ get_range true a_server 2 6 = Good (s_ "2345") /\
  get_opts true (fun h => match h with Some h => a_server h | None => NoReply end) (Some (Bounded 2 6)) = Good {| range := (2, 6)%N; size := 10; payload := Some (s_ "2345") |}.
Proof.
  split; [|split; [|split; reflexivity]].
  - intros h r A _. unfold a_server in A. destruct (teqb h (s_ "bytes=2-5")) eqn:T.
    + apply teqb_eq in T. subst h. injection A as <-. exists 2%N, 5%N. split; [exact (from_to _ _ _ _ 10 num1 num5 ltac:(lia) ltac:(lia))|]. split; [reflexivity|].
      exists (s_ "bytes 2-5/10"). split; [reflexivity|]. exists (s_ "2"), (s_ "5"), (s_ "10"). split; [exact num1|]. split; [exact num5|]. split; [exact num10|reflexivity].
    + destruct (teqb h (s_ "bytes=0-0")) eqn:T'; [|discriminate]. apply teqb_eq in T'. subst h. injection A as <-. exists 0%N, 0%N. split; [exact (from_to _ _ _ _ 10 num0 num0 ltac:(lia) ltac:(lia))|].
      split; [reflexivity|]. exists (s_ "bytes 0-0/10"). split; [reflexivity|]. exists (s_ "0"), (s_ "0"), (s_ "10"). split; [exact num0|]. split; [exact num0|]. split; [exact num10|reflexivity].
  - intros h r t A _. unfold a_server in A. destruct (teqb h (s_ "bytes=2-5")); [injection A as <-; left; reflexivity|]. destruct (teqb h (s_ "bytes=0-0")); [injection A as <-; left; reflexivity|discriminate].
Qed.
Definition whole_reply : response := {| status := 200; content_range := Missing; content_length := Text (s_ "10"); accept_ranges := Missing; etag := Missing; date_ok := true; body := Some a_file |}.
Example c64_whole_example : serves_whole a_file (Answer whole_reply) /\ get_opts true (fun _ => Answer whole_reply) None = Good {| range := (0, 10)%N; size := 10; payload := Some a_file |} /\ unicode (map ascii_of_nat [195; 169; 97]) /\ ~ unicode (map ascii_of_nat [192; 128]).
Proof.
  split; [intros r E; injection E as <-; right; split; [reflexivity|]; exists (s_ "10"); split; [reflexivity|exact num10]|]. split; [reflexivity|]. split; [apply utf8_unicode; reflexivity|]. rewrite <- utf8_unicode. discriminate.
Qed.
Example c96_example : head (Answer {| status := 403; content_range := Missing; content_length := Missing; accept_ranges := Missing; etag := Missing; date_ok := true; body := None |}) a_server = Good 10%N /\
  group4 (s_ "bytes 0-0") = Some None /\ group4 (s_ "bytes */10") = None.
Proof. split; [reflexivity|]. split; reflexivity. Qed.
Example c95_example : requested (s_ "https://host.com/a file.parquet?x=1&y=2") = Some (Good (s_ "https://host.com/a file.parquet?x=1&y=2")) /\
  requested (s_ "https://host.com/f?sig=a%2Bb") = Some (Good (s_ "https://host.com/f?sig=a+b")) /\ requested (s_ "https://host.com/dir/") = Some (Good (s_ "https://host.com/dir")) /\
  requested (s_ "http://host.com/%ff") = Some Panic /\ requested (s_ "http://host.com/f?sig=a//b") = Some Bad /\ requested (s_ "s3://bucket/file") = None.
Proof. split; [reflexivity|]. split; [reflexivity|]. split; [reflexivity|]. split; [reflexivity|]. split; reflexivity. Qed.

Print Assumptions c64_request.
Print Assumptions c64_only_partial_content.
Print Assumptions c64_partial.
Print Assumptions c64_answered.
Print Assumptions c64_length_refuted.
Print Assumptions c64_nothing_refuted.
Print Assumptions c64_nothing_panic_refuted.
Print Assumptions c64_empty_refuted.
Print Assumptions c64_opts_partial.
Print Assumptions c64_opts_refuted.
Print Assumptions c64_whole.
Print Assumptions c64_headers.
Print Assumptions c95_partial.
Print Assumptions c95_exact.
Print Assumptions c95_escape_refuted.
Print Assumptions c95_slash_refuted.
Print Assumptions c95_double_slash_refuted.
Print Assumptions c95_panic_refuted.
Print Assumptions c96_head.
Print Assumptions c96_announced.
Print Assumptions c96_via_get_partial.
Print Assumptions c96_panic_refuted.
Print Assumptions c96_unknown_size.
Print Assumptions c96_empty_refuted.
Print Assumptions c97_partial.
Print Assumptions c97_refuted.
