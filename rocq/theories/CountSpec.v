(* What the properties of counted requests, statuses and waiting results mean. *)
From Coq Require Import Ascii String List Bool Arith.
From Verif Require Import RespModel CountModel.
From Verif Require HttpModel HttpSpec.
Import ListNotations.
Open Scope list_scope.

(* ---- C138 ---- *)
(* What a request is for *)
Definition target (q : http_request) : route := RespModel.request (verb q) (path q).
(* The request asks for a query or an upload and is turned away before its handler: its token is missing, wrong or useless, it may not read,
   or it brings no query *)
Definition bad_token hash (policy : HttpModel.policy) (q : http_request) : Prop :=
  ~ ((auth q = None /\ (HttpModel.read policy = HttpModel.Any \/ HttpModel.write policy = HttpModel.Any)) \/
     exists t, HttpSpec.presents (auth q) t /\ (HttpSpec.right_token hash t (HttpModel.read policy) \/ HttpSpec.right_token hash t (HttpModel.write policy))).
Definition may_not_read (policy : HttpModel.policy) (q : http_request) : Prop :=
  HttpModel.read policy = HttpModel.Off \/ (auth q = None /\ HttpModel.read policy <> HttpModel.Any).
(* the token is none of those that the settings ask for *)
Definition wrong_token hash (policy : HttpModel.policy) (q : http_request) : Prop :=
  exists t, HttpSpec.presents (auth q) t /\ ~ HttpSpec.right_token hash t (HttpModel.read policy) /\ ~ HttpSpec.right_token hash t (HttpModel.write policy) /\
    exists h, HttpModel.read policy = HttpModel.Password h \/ HttpModel.write policy = HttpModel.Password h.
Definition turned_away hash policy (q : http_request) : Prop :=
  match target q with
  | ReadQuery _ _ => bad_token hash policy q \/ may_not_read policy q
  | RunQuery _ => bad_token hash policy q \/ json q = false
  | Upload _ _ _ => bad_token hash policy q
  | Health | NotFound => False
  end.
(* The route of a request *)
Definition route_name (q : http_request) : option text :=
  match target q with ReadQuery _ _ | RunQuery _ => Some (s_ "/q") | Upload _ _ _ => Some (s_ "/upload") | Health => Some (path q) | NotFound => None end.
(* The database that a request names *)
Definition database (q : http_request) : option text :=
  match target q with ReadQuery d _ | RunQuery d => Some d | Upload d _ _ => Some d | _ => None end.

(* ---- C139: the time series of a counter: one for each combination of labels ---- *)
Definition series {A} (labels : list A) (n : nat) : Prop := exists distinct, NoDup distinct /\ incl distinct labels /\ List.length distinct = n.

(* ---- C140 ---- *)
Definition counted_ok (c : call) : bool := match counted_code (serve c) with Some COk => true | _ => false end.
Definition seen_ok (c : call) : bool := match seen_code (serve c) with COk => true | _ => false end.
(* the call fetches a query that fails while it runs *)
Definition fails_late (c : call) : bool := match c with DoGet (Some (Runs (Some _))) => true | _ => false end.

(* ---- C141 ---- *)
(* Whose fault it is when a call fails. Errors of the query engine: as for HTTP, what is wrong with the query or its data is the client's
   fault *)
Definition engine_client_fault (e : engine_error) : Prop :=
  match e with SqlError | PlanError | SchemaError | NotImplemented | ConfigurationError => True | _ => False end.
Definition sync_client_fault (e : sync_error) : Prop := match e with SchemaErrorS | InvalidMessage | NotImplementedS => True | DataFusionErrorS e => engine_client_fault e | _ => False end.
Definition query_client_fault (q : query) : Prop := match q with Unplannable e | Unstartable e => engine_client_fault e | Runs _ => False end.
Definition query_server_fault (q : query) : Prop := match q with Unplannable e | Unstartable e => ~ engine_client_fault e | Runs _ => False end.
Definition client_fault (c : call) : Prop :=
  match c with
  | GetInfo q => query_client_fault q
  | GetInline decodes schemas q => decodes = false \/ schemas = false \/ query_client_fault q
  | DoGet None => True
  | DoGet (Some (Runs (Some e))) => engine_client_fault e
  | DoGet _ => False
  | DoPut (Undecodable | BadSchema) => True
  | DoPut (Processed (Some e)) => sync_client_fault e
  | DoPut _ => False
  | OtherCall _ => True
  end.
Definition server_fault (c : call) : Prop :=
  match c with
  | GetInfo q => query_server_fault q
  | GetInline decodes schemas q => decodes = true /\ schemas = true /\ query_server_fault q
  | DoGet (Some (Runs (Some e))) => ~ engine_client_fault e
  | DoPut (Processed (Some e)) => ~ sync_client_fault e
  | _ => False
  end.
(* The codes that tell the client to mend its request *)
Definition blames_client (c : code) : Prop := c = CInvalidArgument \/ c = CNotFound \/ c = CUnimplemented.

(* ---- C142 ---- *)
Definition fetches {S} (es : list (HttpModel.fev S)) : list nat := flat_map (fun e => match e with HttpModel.FFetch id => [id] | _ => [] end) es.
(* [ids] are the results that the server keeps *)
Definition keeps {S} (st : HttpModel.fstate S) (ids : list nat) : Prop := NoDup ids /\ forall id, In id ids <-> HttpModel.results st id <> None.
