(* Requests of web pages of other origins: CORS (src/frontend/http.rs 518-526, 650-653) in front of the routes of CountModel.v. See PageSpec.v for
   what the property means and PageProps.v for the theorems.

   The server's part is warp 0.3.7, src/filters/cors.rs; the browser's part is the Fetch standard (CORS-preflight fetch, CORS check). Neither is in
   /repo: both are written from general knowledge and trusted.
   Simplifications: names of headers are in lower case (browsers and warp compare them so); cookies and other credentials of the browser are
   left out (the server uses none); answers to preflight requests are not kept; a content type is given without its parameters. *)
From Coq Require Import Ascii String List Bool Arith.
From Verif Require Import RespModel CountModel.
From Verif Require HttpModel.
Import ListNotations.
Open Scope list_scope.

Fixpoint same (a b : list ascii) : bool :=
  match a, b with [], [] => true | x :: a, y :: b => (Ascii.eqb x y && same a b)%bool | _, _ => false end.
Definition mem (n : list ascii) (l : list (list ascii)) : bool := existsb (same n) l.

(* ---- the server ---- *)
(* http.rs 518-526 *)
Definition allow_headers : list (list ascii) := [s_ "x-seafowl-query"; s_ "authorization"; s_ "content-type"].
Definition allow_methods : list method := [Get; Post].
Definition expose_headers : list (list ascii) := [].
(* cors.rs check_request of an OPTIONS request with an origin: the method and all headers have to be allowed; any origin is. It is answered
   before the routes, so without a token. *)
Definition preflight_ok (m : method) (names : list (list ascii)) : bool :=
  (existsb (fun a => match a, m with Get, Get | Post, Post => true | _, _ => false end) allow_methods && forallb (fun n => mem n allow_headers) names)%bool.
(* cors.rs WrappedFuture: Access-Control-Allow-Origin is added to answers. A rejection passes, and becomes an answer in [recover], which is
   outside (http.rs 650-653). [Some st]: an answer with this status that the page may see *)
Definition shared_status (v : verdict) : option nat := match v with Handled st => Some st | Rejected _ => None end.

(* ---- the browser ---- *)
(* A page's call of fetch. [others]: names of further headers that it sets *)
Record page_request := { request : http_request; query_header : bool; content_type : option (list ascii); has_body : bool; others : list (list ascii) }.
(* CORS-safelisted request headers; Range is left out *)
Definition safe_names : list (list ascii) := [s_ "accept"; s_ "accept-language"; s_ "content-language"].
Definition safe_types : list (list ascii) := [s_ "application/x-www-form-urlencoded"; s_ "multipart/form-data"; s_ "text/plain"].
(* CORS-unsafe request-header names *)
Definition unsafe_names (g : page_request) : list (list ascii) :=
  (match auth (request g) with Some _ => [s_ "authorization"] | None => [] end) ++
  (match content_type g with Some t => if mem t safe_types then [] else [s_ "content-type"] | None => [] end) ++
  (if query_header g then [s_ "x-seafowl-query"] else []) ++
  filter (fun n => negb (mem n safe_names)) (others g).
(* CORS-safelisted response-header names *)
Definition plain_answer_headers : list (list ascii) :=
  [s_ "cache-control"; s_ "content-language"; s_ "content-length"; s_ "content-type"; s_ "expires"; s_ "last-modified"; s_ "pragma"].
Definition readable (n : list ascii) : bool := (mem n plain_answer_headers || mem n expose_headers)%bool.
(* What the page gets: the status and the headers that it can read, or an error that tells nothing *)
Inductive outcome := Sees (st : nat) (headers : list (list ascii)) | NetworkError.
Section Browser.
  Variable hash : list ascii -> list ascii.
  Variable policy : HttpModel.policy.
  Variable headers_of : http_request -> list (list ascii).      (* the headers of the answer *)
  Definition fetched (g : page_request) : outcome :=
    let q := request g in
    if match verb q with Get => has_body g | Post => false end then NetworkError        (* a GET request with a body: TypeError *)
    else if match unsafe_names g with [] => true | names => preflight_ok (verb q) names end then
      match shared_status (routes hash policy q) with
      | Some st => Sees st (filter readable (headers_of q))
      | None => NetworkError
      end
    else NetworkError.
End Browser.
