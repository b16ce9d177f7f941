(* The requests that the frontends count (src/frontend/http.rs, src/frontend/http_utils.rs, src/frontend/flight), the statuses they are
   answered with, and the results that wait to be fetched. See CountSpec.v for what the properties mean and CountProps.v for the theorems. *)
From Coq Require Import Ascii String List Bool Arith Lia.
From Verif Require Import RespModel.
From Verif Require HttpModel.
Import ListNotations.
Open Scope list_scope.

(* ---- 1. HTTP: rejections of warp 0.3 (src/reject.rs) ---- *)
(* A filter that does not take a request gives a reason: the path is another one, the method is another one, some other reason of warp
   with its status, or an error of this program (http_utils.rs 151-156 impl Reject for ApiError); [Both]: Rejection::combine *)
Inductive rejection := OtherPath | OtherMethod | Known (st : nat) | Custom (e : api_error) | Both (a b : rejection).
(* Rejection::combine: an unknown path gives way to any other reason *)
Definition combine (a b : rejection) : rejection :=
  match a, b with OtherPath, OtherPath => OtherPath | OtherPath, r => r | r, OtherPath => r | r, r' => Both r r' end.
(* Rejections::preferred and IsReject::status: of two reasons, 404 comes last, then 405, then the smaller status; an error of this program
   is a 500 for warp *)
Definition prefer (a b : nat) : nat :=
  if Nat.eqb b 404 then a else if Nat.eqb a 404 then b else if Nat.eqb b 405 then a else if Nat.eqb a 405 then b else if Nat.ltb a b then b else a.
Fixpoint warp_status (r : rejection) : nat :=
  match r with OtherPath => 404 | OtherMethod => 405 | Known st => st | Custom _ => 500 | Both a b => prefer (warp_status a) (warp_status b) end.
(* Rejection::find::<ApiError> *)
Fixpoint find_error (r : rejection) : option api_error :=
  match r with Custom e => Some e | Both a b => match find_error a with Some e => Some e | None => find_error b end | _ => None end.

(* ---- 2. HTTP: the four routes, http.rs 564-641 ---- *)
Definition api_of (e : HttpModel.auth_error) : api_error :=
  match e with
  | HttpModel.NeedAccessToken => NeedAccessToken | HttpModel.UselessAccessToken => UselessAccessToken
  | HttpModel.WrongAccessToken => WrongAccessToken | HttpModel.InvalidAuthorizationHeader => InvalidAuthorizationHeader
  end.
(* A request. [json]: the body is a JSON object with a query; [form]: None if the body is taken as a form, otherwise the status of warp's
   refusal; [answers]: the status its handler answers with, once it is called. Simplified: methods other than GET and POST are left out
   (CORS preflight requests are answered by warp) *)
Record http_request := { verb : method; path : text; auth : option text; json : bool; form : option nat; answers : route -> nat }.
Inductive verdict := Handled (st : nat) | Rejected (r : rejection).
Section Server.
  Variable hash : text -> text.
  Variable policy : HttpModel.policy.
  (* [paths] names what the path is for, whatever the method; [want] is the method of the route *)
  Definition route_filter (want : method) (paths : route) (mine : route -> bool) (q : http_request) (inner : route -> verdict) : verdict :=
    if mine paths then match want, verb q with Get, Get | Post, Post => inner paths | _, _ => Rejected OtherMethod end else Rejected OtherPath.
  (* http.rs 255-265 with_auth *)
  Definition with_auth (q : http_request) (inner : HttpModel.principal -> verdict) : verdict :=
    match HttpModel.header_to_principal hash (auth q) policy with HttpModel.Ok pr => inner pr | HttpModel.Err e => Rejected (Custom (api_of e)) end.
  Definition is_read (r : route) := match r with ReadQuery _ _ => true | _ => false end.
  Definition is_run (r : route) := match r with RunQuery _ => true | _ => false end.
  Definition is_upload (r : route) := match r with Upload _ _ _ => true | _ => false end.
  Definition is_health (r : route) := match r with Health => true | _ => false end.
  (* http.rs 564-597, 269-287 *)
  Definition cached_read (q : http_request) : verdict :=
    route_filter Get (RespModel.request Get (path q)) is_read q (fun r => with_auth q (fun pr =>
      match HttpModel.read policy with
      | HttpModel.Off => Rejected (Custom ReadOnlyEndpointDisabled)
      | _ => if HttpModel.can_perform_action pr HttpModel.Read policy then Handled (answers q r) else Rejected (Custom ReadForbidden)
      end)).
  (* http.rs 599-617 *)
  Definition uncached (q : http_request) : verdict :=
    route_filter Post (RespModel.request Post (path q)) is_run q (fun r => with_auth q (fun _ =>
      if json q then Handled (answers q r) else Rejected (Custom QueryParsingError))).
  (* http.rs 619-632 *)
  Definition upload (q : http_request) : verdict :=
    route_filter Post (RespModel.request Post (path q)) is_upload q (fun r => with_auth q (fun _ =>
      match form q with None => Handled (answers q r) | Some st => Rejected (Known st) end)).
  (* http.rs 634-643 *)
  Definition health (q : http_request) : verdict :=
    route_filter Get (RespModel.request Get (path q)) is_health q (fun r => Handled (answers q r)).
  (* Filter::or *)
  Definition or_else (a b : verdict) : verdict :=
    match a, b with Handled st, _ => Handled st | Rejected r, Handled st => Handled st | Rejected r, Rejected r' => Rejected (combine r r') end.
  (* http.rs 645-648 *)
  Definition routes (q : http_request) : verdict := or_else (or_else (or_else (cached_read q) (uncached q)) (upload q)) (health q).
  (* The status of the answer: http.rs 653, http_utils.rs 165-174 handle_rejection, and warp's own answer to what is left *)
  Definition answered (q : http_request) : nat :=
    match routes q with Handled st => st | Rejected r => match find_error r with Some e => status_code e | None => warp_status r end end.
  (* The status that the counter sees: http.rs 526-562, 650 [with(log)] comes before [recover] *)
  Definition counted_status (q : http_request) : nat := match routes q with Handled st => st | Rejected r => warp_status r end.
End Server.
(* str::contains *)
Fixpoint starts (p t : text) : bool :=
  match p, t with [], _ => true | x :: p, y :: t => (Ascii.eqb x y && starts p t)%bool | _ :: _, [] => false end.
Fixpoint contains (p t : text) : bool := (starts p t || match t with [] => false | _ :: t => contains p t end)%bool.
(* http.rs 529-538 the label "route" *)
Definition label (p : text) : text := if contains (s_ "/upload/") p then s_ "/upload" else if contains (s_ "/q") p then s_ "/q" else p.

(* ---- 3. Flight: what a call comes to ---- *)
(* The gRPC codes that occur *)
Inductive code := COk | CUnknown | CInvalidArgument | CNotFound | CUnimplemented | CInternal.
(* What a handler gives: a status in place of an answer, or a stream that ends well or with a status. tonic puts the former into the
   headers of the response (server/grpc.rs map_response), the latter into its trailers. [Panics]: the task ends, and the call with it *)
Inductive handler := Fails (c : code) | Streams (ends : code) | Panics.
(* flight/metrics.rs 61-84; [None]: not counted *)
Definition counted_code (h : handler) : option code := match h with Fails c => Some c | Streams _ => Some COk | Panics => None end.
(* What the client is told: the status in the headers, or else the one at the end of the stream; a call whose task is gone is reset *)
Definition seen_code (h : handler) : code := match h with Fails c => c | Streams c => c | Panics => CUnknown end.

(* What can happen to a query. handler.rs 66-121: planning and starting it fail or not, [Runs]: its stream ends well or fails *)
Inductive query := Unplannable (e : engine_error) | Unstartable (e : engine_error) | Runs (failure : option engine_error).
(* sql.rs 84-108 get_flight_info_statement; on success the answer is one message *)
Definition query_to_stream (q : query) : handler := match q with Unplannable _ | Unstartable _ => Fails CInternal | Runs _ => Streams COk end.
(* sql.rs 111-154 get_flight_info_fallback: [decodes]: the message is an InlineMetastoreCommandStatementQuery, [schemas]: with schemas *)
Definition inline_query (decodes schemas : bool) (q : query) : handler := if decodes then if schemas then query_to_stream q else Panics else Fails CInvalidArgument.
(* sql.rs 157-188 do_get_statement, with what is kept under the ticket. From<FlightError> for Status makes INTERNAL of external errors *)
Definition do_get (kept : option query) : handler :=
  match kept with
  | None => Fails CNotFound
  | Some (Runs (Some _)) => Streams CInternal
  | Some _ => Streams COk
  end.
(* sync/mod.rs 19-44 *)
Inductive sync_error := SchemaErrorS | InvalidMessage | NotImplementedS | ArrowErrorS | SerdeJsonError | DataFusionErrorS (e : engine_error) | DeltaTableError | ObjectStoreErrorS.
(* A sync message: what is wrong with it, in the order of sql.rs 192-235. [BadStream c]: the stream of batches ends with that status;
   [BadSchema]: SyncSchema::try_new fails, [Processed]: process_sync_cmd *)
Inductive sync := Undecodable | BadStream (c : code) | BadSchema | Processed (r : option sync_error).
Definition do_put (s : sync) : handler :=
  match s with
  | Undecodable => Fails CInvalidArgument
  | BadStream c => Fails c
  | BadSchema => Fails CInvalidArgument
  | Processed (Some InvalidMessage) => Fails CInvalidArgument
  | Processed (Some _) => Fails CInternal
  | Processed None => Streams COk
  end.
(* A call, with the path of its URL. flight/mod.rs 42-49: the layer is around the router of the server, which answers UNIMPLEMENTED to
   paths it does not know *)
Inductive call := GetInfo (q : query) | GetInline (decodes schemas : bool) (q : query) | DoGet (kept : option query) | DoPut (s : sync) | OtherCall (p : text).
Definition serve (c : call) : handler :=
  match c with GetInfo q => query_to_stream q | GetInline d s q => inline_query d s q | DoGet k => do_get k | DoPut s => do_put s | OtherCall _ => Fails CUnimplemented end.
Definition grpc_label (c : call) : text :=
  match c with
  | GetInfo _ | GetInline _ _ _ => s_ "/arrow.flight.protocol.FlightService/GetFlightInfo"
  | DoGet _ => s_ "/arrow.flight.protocol.FlightService/DoGet"
  | DoPut _ => s_ "/arrow.flight.protocol.FlightService/DoPut"
  | OtherCall p => p
  end.
