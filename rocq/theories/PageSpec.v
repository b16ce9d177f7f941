(* What the property of web pages means. Of PageModel.v only the calls that a page makes are used; [turned_away] and [target] of CountSpec.v say
   which requests are refused before their handler and what a request is for. *)
From Coq Require Import Ascii String List Bool Arith.
From Verif Require Import RespModel CountModel CountSpec PageModel.
From Verif Require HttpModel.
Import ListNotations.
Open Scope list_scope.

(* the page sets no headers besides Authorization, Content-Type and X-Seafowl-Query, except those that every page may set *)
Definition usual_headers (g : page_request) : Prop :=
  forall n, In n (others g) -> In n [s_ "accept"; s_ "accept-language"; s_ "content-language"; s_ "authorization"; s_ "content-type"; s_ "x-seafowl-query"].
(* browsers send no bodies with GET *)
Definition sendable (g : page_request) : Prop := verb (request g) = Post \/ has_body g = false.
(* the request is for something that there is, and an upload is a form *)
Definition sensible (q : http_request) : Prop := match target q with NotFound => False | Upload _ _ _ => form q = None | _ => True end.
