(* The answers of the HTTP frontend: rows as JSON lines, streams that fail, headers, status codes and routes (src/frontend/http.rs,
   src/frontend/http_utils.rs). See RespSpec.v for what the properties mean and RespProps.v for the theorems. *)
From Coq Require Import Ascii String List Bool Arith NArith.
Import ListNotations.
Open Scope list_scope.
Notation text := (list ascii) (only parsing).
Definition s_ (s : string) : text := list_ascii_of_string s.

(* ---- Rows: http.rs 126-138 batch_to_json ---- *)
(* The cells of a row. [Number]: a finite number as it is printed; [NotFinite]: a floating point number that is infinite or not a number.
   Simplified: dates, times and the like are texts; no nested values *)
Inductive cell := Null | Flag (b : bool) | Number (t : text) | NotFinite | Text (t : text).
(* serde_json's format_escaped_str, which arrow-json uses for texts and for the names of columns *)
Definition hex_digit (n : nat) : ascii := ascii_of_nat (if Nat.ltb n 10 then 48 + n else 87 + n).
Definition escape (c : ascii) : text :=
  let n := nat_of_ascii c in
  if Nat.eqb n 34 then s_ "\""" else if Nat.eqb n 92 then s_ "\\"
  else if Nat.eqb n 8 then s_ "\b" else if Nat.eqb n 9 then s_ "\t" else if Nat.eqb n 10 then s_ "\n" else if Nat.eqb n 12 then s_ "\f" else if Nat.eqb n 13 then s_ "\r"
  else if Nat.ltb n 32 then s_ "\u00" ++ [hex_digit (n / 16); hex_digit (n mod 16)]
  else [c].
Definition quote : ascii := """"%char.
Definition encode_string (t : text) : text := quote :: flat_map escape t ++ [quote].
(* arrow-json 53: WriterBuilder::with_explicit_nulls(true); numbers that are not finite are written as null *)
Definition encode_cell (c : cell) : text :=
  match c with Null | NotFinite => s_ "null" | Flag true => s_ "true" | Flag false => s_ "false" | Number t => t | Text t => encode_string t end.
Definition encode_field (f : text * cell) : text := encode_string (fst f) ++ s_ ":" ++ encode_cell (snd f).
Fixpoint commas (l : list text) : text := match l with [] => [] | [x] => x | x :: l => x ++ s_ "," ++ commas l end.
Definition newline : ascii := ascii_of_nat 10.
(* LineDelimited: one object and a newline for each row *)
Definition encode_row (r : list (text * cell)) : text := s_ "{" ++ commas (map encode_field r) ++ s_ "}" ++ [newline].
Definition batch_to_json (rows : list (list (text * cell))) : text := flat_map encode_row rows.

(* ---- Streams: http.rs 140-157 plan_to_response ---- *)
(* What the engine yields: batches of rows and errors, with the message *)
Inductive event := Batch (rows : list (list (text * cell))) | Failure (message : text).
Definition body_of (stream : list event) : text := flat_map (fun e => match e with Batch rows => batch_to_json rows | Failure m => m end) stream.

(* ---- Errors: http_utils.rs 56-131 status_code_body ---- *)
(* The kinds of errors of DataFusion *)
Inductive engine_error := SqlError | PlanError | SchemaError | NotImplemented | ConfigurationError | ExecutionError | ArrowError | ParquetError | ObjectStoreError | IoErrorDF | InternalError | ResourcesExhausted | ExternalError | SubstraitError.
Inductive api_error :=
  DataFusionError (e : engine_error) | IoError | HashMismatch | NotReadOnlyQuery | ReadOnlyEndpointDisabled | ReadForbidden | WriteForbidden | NeedAccessToken | UselessAccessToken
  | WrongAccessToken | InvalidAuthorizationHeader | InvalidMultiStatement | EmptyMultiStatement | UploadMissingFile | UploadMissingFilename | UploadMissingFilenameExtension
  | UploadSchemaDeserializationError | UploadSchemaParseError | UploadFileLoadError | UploadBodyLoadError | UploadHasHeaderParseError | UploadUnsupportedFileFormat | QueryDecodeError | QueryParsingError.
Definition status_code (e : api_error) : nat :=
  match e with
  | DataFusionError _ => 400
  | IoError => 500
  | NotReadOnlyQuery | ReadOnlyEndpointDisabled => 405
  | ReadForbidden | WriteForbidden => 403
  | NeedAccessToken | WrongAccessToken | InvalidAuthorizationHeader => 401
  | HashMismatch | UselessAccessToken | InvalidMultiStatement | EmptyMultiStatement | UploadMissingFile | UploadMissingFilename | UploadMissingFilenameExtension
  | UploadSchemaDeserializationError | UploadSchemaParseError | UploadFileLoadError | UploadBodyLoadError | UploadHasHeaderParseError | UploadUnsupportedFileFormat | QueryDecodeError | QueryParsingError => 400
  end.

(* ---- Answers ---- *)
(* The headers that matter here *)
Record response := { status : nat; etag : option text; cache_control : option text; body : text }.
Definition error_response (e : api_error) (message : text) : response := {| status := status_code e; etag := None; cache_control := None; body := message |}.
(* What becomes of a query: an error before anything is sent (with its message), or a stream *)
Inductive execution := Refused (e : api_error) (message : text) | Streamed (stream : list event).
(* http.rs 158-233, 539-557 POST /q, the answer to the last statement *)
Definition post_answer (x : execution) : response :=
  match x with Refused e m => error_response e m | Streamed s => {| status := 200; etag := None; cache_control := None; body := body_of s |} end.
(* http.rs 335-378, 512-537 GET /q/...: [tag] is the ETag of the plan; the Cache-Control header goes with every answer that is no ApiError *)
Definition get_answer (cc tag : text) (if_none_match : option text) (x : execution) : response :=
  match if_none_match with
  | Some t => if list_eq_dec ascii_dec tag t then {| status := 304; etag := None; cache_control := Some cc; body := s_ "NOT_MODIFIED" |}
              else match x with Refused e m => error_response e m | Streamed s => {| status := 200; etag := Some tag; cache_control := Some cc; body := body_of s |} end
  | None => match x with Refused e m => error_response e m | Streamed s => {| status := 200; etag := Some tag; cache_control := Some cc; body := body_of s |} end
  end.

(* ---- Routes: http.rs 512-654 ---- *)
Inductive method := Get | Post.
(* What a request is for. The names are the segments of the path, which warp's path parameters hand over as they are in the URL *)
Inductive route := ReadQuery (db query : text) | RunQuery (db : text) | Upload (db schema table : text) | Health | NotFound.
Definition default_db : text := s_ "default".
Definition is (s : string) (t : text) : bool := if list_eq_dec ascii_dec t (s_ s) then true else false.
(* A parameter does not match an empty segment *)
Definition param (t : text) : bool := negb (is "" t).
Definition match_route (m : method) (segments : list text) : route :=
  match m with
  | Get =>
      match segments with
      | [d; q; x] => if (param d && is "q" q && param x)%bool then ReadQuery d x else NotFound
      | [q; x] => if (is "q" q && param x)%bool then ReadQuery default_db x else NotFound
      | [h] => if (is "healthz" h || is "readyz" h)%bool then Health else NotFound
      | _ => NotFound
      end
  | Post =>
      match segments with
      | [d; u; s; t] => if (param d && is "upload" u && param s && param t)%bool then Upload d s t else NotFound
      | [u; s; t] => if (is "upload" u && param s && param t)%bool then Upload default_db s t else NotFound
      | [d; q] => if (param d && is "q" q)%bool then RunQuery d else NotFound
      | [q] => if is "q" q then RunQuery default_db else NotFound
      | _ => NotFound
      end
  end.
(* The segments of a path, which begins with a slash. Simplified: no query string; a trailing slash is an empty last segment *)
Fixpoint split_slash (t : text) : list text :=
  match t with
  | [] => [[]]
  | c :: r => if Ascii.eqb c "/" then [] :: split_slash r else match split_slash r with x :: l => (c :: x) :: l | [] => [[c]] end
  end.
Definition request (m : method) (path : text) : route :=
  match path with c :: r => if Ascii.eqb c "/" then match_route m (split_slash r) else NotFound | [] => NotFound end.
