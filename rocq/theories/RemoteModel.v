(* Model of the object store that reads files from HTTP servers (src/object_store/http.rs). A text is the list of its bytes.
   See RemoteSpec.v for what the properties mean, RemoteProps.v for the theorems. *)
From Coq Require Import Ascii String List Arith NArith Bool.
From Verif Require Import HttpModel.
Import ListNotations.
Open Scope list_scope.

(* ---- Numbers as Display writes them and as str::parse reads them ---- *)
Definition digit (n : N) : ascii := ascii_of_N (48 + n).
Fixpoint to_digits (fuel : nat) (n : N) (acc : text) : text :=
  let acc' := digit (n mod 10) :: acc in
  match fuel with 0 => acc' | S f => if (n <? 10)%N then acc' else to_digits f (n / 10)%N acc' end.
Definition digits (n : N) : text := to_digits (N.to_nat (N.size n)) n [].
Definition digit_value (c : ascii) : option N := let n := N_of_ascii c in if ((48 <=? n) && (n <=? 57))%N then Some (n - 48)%N else None.
Fixpoint fold_digits (v : N) (t : text) : option N :=
  match t with [] => Some v | c :: r => match digit_value c with Some d => fold_digits (10 * v + d)%N r | None => None end end.
Definition max64 : N := (2 ^ 64 - 1)%N.
(* <usize as FromStr> and <u64 as FromStr>: an optional plus sign, digits, no overflow *)
Definition parse_number (t : text) : option N :=
  let t := match t with c :: r => if Ascii.eqb c "+" then r else t | [] => t end in
  match t with
  | [] => None
  | _ => match fold_digits 0 t with Some n => if (n <=? max64)%N then Some n else None | None => None end
  end.

(* ---- Replies ---- *)
Inductive header := Missing | Unreadable | Text (t : text).       (* Unreadable: HeaderValue::to_str fails *)
(* [body]: None if the connection breaks while it is read. [date_ok]: there is no Last-Modified header, or it is a date. *)
Record response := { status : N; content_range : header; content_length : header; accept_ranges : header; etag : header; date_ok : bool; body : option text }.
Inductive reply := NoReply | Answer (r : response).
Inductive result (A : Type) := Good (a : A) | Bad | Panic.
Arguments Good {A} a. Arguments Bad {A}. Arguments Panic {A}.
(* http.rs 190-199 send: error_for_status refuses the statuses 400 to 599 *)
Definition send (r : reply) : option response :=
  match r with Answer x => if ((400 <=? status x) && (status x <? 600))%N then None else Some x | NoReply => None end.

(* ---- Ranges ---- *)
(* range.end - 1: a debug build ([checked]) stops at 0, a release build goes on with the largest number *)
Definition minus_one (checked : bool) (e : N) : option N := if (e =? 0)%N then if checked then None else Some max64 else Some (e - 1)%N.
(* http.rs 364-387 get_range: the value of the Range header, None if it panics *)
Definition range_request (checked : bool) (a b : N) : option text :=
  match minus_one checked b with Some e => Some (s_ "bytes=" ++ digits a ++ s_ "-" ++ digits e) | None => None end.
Definition get_range (checked : bool) (srv : text -> reply) (a b : N) : result text :=
  match range_request checked a b with
  | None => Panic
  | Some h =>
      match send (srv h) with
      | None => Bad
      | Some r => if (status r =? 206)%N then match body r with Some bs => Good bs | None => Bad end else Bad
      end
  end.

(* object_store's GetRange and its Display (util.rs), used in http.rs 161-163 *)
Inductive get_range_opt := Bounded (a b : N) | Offset (a : N) | Suffix (n : N).
Definition show_range (checked : bool) (g : get_range_opt) : option text :=
  match g with
  | Bounded a b => range_request checked a b
  | Offset a => Some (s_ "bytes=" ++ digits a ++ s_ "-")
  | Suffix n => Some (s_ "bytes=-" ++ digits n)
  end.
(* str::trim, str::strip_prefix, str::split_once *)
Definition space (c : ascii) : bool := let n := nat_of_ascii c in (Nat.eqb n 32 || (Nat.leb 9 n && Nat.leb n 13))%bool.
Fixpoint trim_start (t : text) : text := match t with c :: r => if space c then trim_start r else t | [] => [] end.
Definition trim (t : text) : text := rev (trim_start (rev (trim_start t))).
Fixpoint strip_prefix (p t : text) : option text :=
  match p, t with [], _ => Some t | x :: p', y :: t' => if Ascii.eqb x y then strip_prefix p' t' else None | _ :: _, [] => None end.
Fixpoint split_once (c : ascii) (t : text) : option (text * text) :=
  match t with
  | [] => None
  | x :: r => if Ascii.eqb x c then Some ([], r) else match split_once c r with Some (a, b) => Some (x :: a, b) | None => None end
  end.
(* http.rs 322-338 ContentRange::from_str: range.start, range.end and size; None: the header is refused. [end + 1] overflows at the largest number. *)
Inductive parsed := Refused | Overflow | Range (first after size : N).
Definition parse_content_range (checked : bool) (s : text) : parsed :=
  match strip_prefix (s_ "bytes ") (trim s) with
  | None => Refused
  | Some rem =>
      match split_once "/" rem with
      | None => Refused
      | Some (range, size) =>
          match parse_number size, split_once "-" range with
          | Some size, Some (s, e) =>
              match parse_number s, parse_number e with
              | Some s, Some e => if (e =? max64)%N then if checked then Overflow else Range s 0 size else Range s (e + 1) size
              | _, _ => Refused
              end
          | _, _ => Refused
          end
      end
  end.
(* http.rs 572-635 header_meta, as far as it decides about the size and the errors *)
Definition header_meta (r : response) : option N :=
  if negb (date_ok r) then None
  else match etag r with
       | Unreadable => None
       | _ => match content_length r with Text t => parse_number t | _ => None end
       end.
(* http.rs 289-362 get_opts *)
Record got := { range : N * N; size : N; payload : option text }.
Definition get_opts (checked : bool) (srv : option text -> reply) (g : option get_range_opt) : result got :=
  match (match g with None => Some None | Some g => match show_range checked g with Some h => Some (Some h) | None => None end end) with
  | None => Panic
  | Some h =>
      match send (srv h) with
      | None => Bad
      | Some r =>
          match header_meta r with
          | None => Bad
          | Some size =>
              match g with
              | None => Good {| range := (0%N, size); size := size; payload := body r |}
              | Some _ =>
                  match content_range r with
                  | Text t =>
                      match parse_content_range checked t with
                      | Refused => Bad
                      | Overflow => Panic
                      | Range s e n => Good {| range := (s, e); size := n; payload := body r |}
                      end
                  | _ => Bad
                  end
              end
          end
      end
  end.

(* ---- Sizes ---- *)
(* http.rs 42-45 CONTENT_RANGE_RE (^bytes)\s+(\d+)\s?-\s?(\d+)?\s?/?\s?(\d+|\* )? on a header, which is ASCII. Every part takes as much as it can:
   the parts next to each other have no characters in common and the last ones are all optional, so that nothing is ever given back.
   None: no match. Some None: group 4 takes no part in the match. *)
Definition is_digit (c : ascii) : bool := match digit_value c with Some _ => true | None => false end.
Fixpoint take_while (f : ascii -> bool) (t : text) : text * text :=
  match t with c :: r => if f c then let (a, b) := take_while f r in (c :: a, b) else ([], t) | [] => ([], []) end.
Definition opt (f : ascii -> bool) (t : text) : text := match t with c :: r => if f c then r else t | [] => [] end.
Definition group4 (t : text) : option (option text) :=
  match strip_prefix (s_ "bytes") t with
  | None => None
  | Some t =>
      match take_while space t with
      | ([], _) => None
      | (_, t) =>
          match take_while is_digit t with
          | ([], _) => None
          | (_, t) =>
              match opt space t with
              | c :: t =>
                  if Ascii.eqb c "-" then
                    let t := snd (take_while is_digit (opt space t)) in
                    let t := opt space (opt (Ascii.eqb "/") (opt space t)) in
                    match take_while is_digit t with
                    | ([], c :: _) => Some (if Ascii.eqb c "*" then Some (s_ "*") else None)
                    | ([], []) => Some None
                    | (d, _) => Some (Some d)
                    end
                  else None
              | [] => None
              end
          end
      end
  end.
(* http.rs 207-240 head_via_get. usize::try_from succeeds on 64-bit machines. *)
Definition head_via_get (srv : text -> reply) : result N :=
  match send (srv (s_ "bytes=0-0")) with
  | None => Bad
  | Some r =>
      match content_range r with
      | Text t =>
          match group4 t with
          | None => Bad
          | Some None => Panic
          | Some (Some d) => match parse_number d with Some n => Good n | None => Bad end
          end
      | _ => Bad
      end
  end.
Definition lower_ascii (c : ascii) : ascii := let n := nat_of_ascii c in if (Nat.leb 65 n && Nat.leb n 90)%bool then ascii_of_nat (n + 32) else c.
(* http.rs 389-439 head *)
Definition head (head_reply : reply) (srv : text -> reply) : result N :=
  match head_reply with
  | Answer x =>
      if (status x =? 403)%N then head_via_get srv
      else match send (Answer x) with
           | None => Bad
           | Some r =>
               match content_length r with
               | Text t =>
                   match parse_number t with
                   | None => Bad
                   | Some n => match accept_ranges r with Text a => if teqb (map lower_ascii a) (s_ "bytes") then Good n else Bad | _ => Bad end
                   end
               | _ => Bad
               end
           end
  | NoReply => Bad
  end.

(* ---- Locations ---- *)
Inductive scheme := Http | Https.
Definition scheme_text (s : scheme) : text := s_ (match s with Http => "http" | Https => "https" end).
(* percent_encoding's NON_ALPHANUMERIC *)
Definition keeps (c : ascii) : bool :=
  let n := nat_of_ascii c in ((Nat.leb 48 n && Nat.leb n 57) || (Nat.leb 65 n && Nat.leb n 90) || (Nat.leb 97 n && Nat.leb n 122))%bool.
Definition hex (n : nat) : ascii := ascii_of_nat (if Nat.ltb n 10 then 48 + n else 55 + n).
Definition encode (t : text) : text :=
  flat_map (fun c => if keeps c then [c] else ["%"%char; hex (nat_of_ascii c / 16); hex (nat_of_ascii c mod 16)]) t.
(* http.rs 548-570 try_prepare_http_url: the scheme and the path of the URL on the host anyhost *)
Definition try_prepare_http_url (location : text) : option (scheme * text) :=
  match strip_prefix (s_ "http://") location with
  | Some l => Some (Http, s_ "/" ++ encode l)
  | None => match strip_prefix (s_ "https://") location with Some l => Some (Https, s_ "/" ++ encode l) | None => None end
  end.
(* What decode_utf8 accepts (RFC 3629) *)
Definition between (lo hi : nat) (c : ascii) : bool := let n := nat_of_ascii c in (Nat.leb lo n && Nat.leb n hi)%bool.
Definition tail : ascii -> bool := between 128 191.
Fixpoint utf8 (t : text) : bool :=
  match t with
  | [] => true
  | a :: r =>
      if between 0 127 a then utf8 r
      else match r with
           | [] => false
           | b :: r =>
               if between 194 223 a then (tail b && utf8 r)%bool
               else match r with
                    | [] => false
                    | c :: r =>
                        if between 224 239 a then
                          (between (if between 224 224 a then 160 else 128) (if between 237 237 a then 159 else 191) b && tail c && utf8 r)%bool
                        else match r with
                             | [] => false
                             | d :: r =>
                                 (between 240 244 a && between (if between 240 240 a then 144 else 128) (if between 244 244 a then 143 else 191) b
                                  && tail c && tail d && utf8 r)%bool
                             end
                    end
           end
  end.
Fixpoint split (c : ascii) (t : text) : list text :=
  match t with
  | [] => [[]]
  | x :: r => if Ascii.eqb x c then [] :: split c r else match split c r with s :: ss => (x :: s) :: ss | [] => [[x]] end
  end.
Definition control (c : ascii) : bool := let n := nat_of_ascii c in (Nat.ltb n 32 || Nat.eqb n 127)%bool.
(* object_store's PathPart::parse *)
Definition segment_ok (s : text) : bool := negb (teqb s [] || teqb s (s_ ".") || teqb s (s_ "..") || existsb control s)%bool.
Definition strip_suffix_slash (t : text) : text := match rev t with c :: r => if Ascii.eqb c "/" then rev r else t | [] => t end.
(* object_store's Path::from_url_path and Path::parse, which DataFusion's ListingTableUrl calls on the path of the URL. The URL parser leaves
   letters, digits and escapes alone. *)
Definition from_url_path (p : text) : option text :=
  let d := percent_decode p in
  if negb (utf8 d) then None
  else
    let stripped := match d with c :: r => if Ascii.eqb c "/" then r else d | [] => d end in
    match stripped with
    | [] => Some []
    | _ => let stripped := strip_suffix_slash stripped in if forallb segment_ok (split "/" stripped) then Some stripped else None
    end.
(* http.rs 144-150 get_uri: the URL that is asked for *)
Definition get_uri (s : scheme) (path : text) : result text :=
  let d := percent_decode path in if utf8 d then Good (scheme_text s ++ s_ "://" ++ d) else Panic.
(* From LOCATION to the URL of the requests: physical.rs 781-785, http.rs *)
Definition requested (location : text) : option (result text) :=
  match try_prepare_http_url location with
  | None => None
  | Some (s, p) => Some (match from_url_path p with None => Bad | Some path => get_uri s path end)
  end.

(* ---- Two stores, one cache ---- *)
(* http.rs 500-528 add_http_object_store and cache.rs 402-417 new_from_sibling: the stores for http and https share the cache, whose keys
   (cache.rs 97-101) are a path without the scheme, and a chunk. Time, sizes and failures are left out here (see Cache*.v). *)
Section Sibling.
  Variable net : scheme -> text -> nat -> text.                    (* what the server with this scheme has at this path, chunk by chunk *)
  Definition cached : Type := list ((text * nat) * text).
  Definition lookup (c : cached) (p : text) (k : nat) : option text :=
    match List.find (fun e => (teqb (fst (fst e)) p && Nat.eqb (snd (fst e)) k)%bool) c with Some e => Some (snd e) | None => None end.
  Definition read_chunk (c : cached) (s : scheme) (p : text) (k : nat) : cached * text :=
    match lookup c p k with Some bs => (c, bs) | None => (((p, k), net s p k) :: c, net s p k) end.
  Definition reads (c : cached) (l : list (scheme * text * nat)) : cached := fold_left (fun c q => fst (read_chunk c (fst (fst q)) (snd (fst q)) (snd q))) l c.
End Sibling.
