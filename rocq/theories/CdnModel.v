(* The cached GET endpoint behind an HTTP cache: a CDN, a proxy or a browser (src/frontend/http.rs: cached_read_query with its authorisation,
   Cache-Control, ETag and Vary). See CdnSpec.v for what the property means and CdnProps.v for the theorems.

   The server is the one of HttpModel.v. The cache is one that does what RFC 9111 asks for: it stores answers that it may store, separately
   for the headers that Vary names, answers from its store as long as an answer is fresh, and asks the server with If-None-Match after that.
   Simplifications: clients send no If-None-Match of their own (a browser that does is a cache of this kind itself); the cache never drops
   an answer (dropping one is the history in which it was not asked for yet); a request is answered at one moment. *)
From Coq Require Import Ascii String List Arith NArith Bool.
From Verif Require Import HttpModel.
Import ListNotations.
Open Scope list_scope.

(* A request of the GET route, http.rs:562-586: the database and the last segment of the path, headers, the query in a JSON body *)
Record get := { url : list ascii * list ascii; authorization : option (list ascii); content_type : option (list ascii); origin : option (list ascii);
                x_seafowl_query : option (list ascii); body : option (list ascii) }.
(* What matters of the configured Cache-Control (schema.rs: "max-age=43200, public" by default) *)
Record control := { max_age : nat; public : bool; private : bool }.
(* The cache: shared between clients (a CDN) or not (a browser); whether it heeds Vary (http.rs:59-60: Cloudflare does not) *)
Record proxy := { shared : bool; heeds_vary : bool }.

Section Cdn.
  Variable hash : list ascii -> list ascii.                          (* str_to_hex_hash *)
  Variable utf8 : list ascii -> bool.
  Variable world : Type.                                             (* the catalog and everything that queries read *)
  Variable plan_of : world -> list ascii -> list ascii -> option plan.   (* create_logical_plan in a database *)
  Variable rows : Type.
  Variable rows_of : world -> list ascii -> list ascii -> option rows.   (* create_physical_plan, plan_to_response; None: an error *)
  Variable tag : list N -> list ascii.                               (* SHA-256 of the bytes written as a JSON array *)
  Variable control_ : control.
  Variable proxy_ : proxy.

  (* ---- the server ---- *)
  Inductive answer := Data (r : rows) (etag : list ascii) | Unmodified | Fails.
  (* http.rs:573-580: the JSON body goes before the header *)
  Definition raw_query (q : get) : option (list ascii) := match body q with Some b => Some b | None => x_seafowl_query q end.
  (* http.rs:269-287 cached_read_query_authz, 297-378 cached_read_query *)
  Definition serve (p : policy) (w : world) (q : get) (if_none_match : option (list ascii)) : answer :=
    match header_to_principal hash (authorization q) p with
    | Err _ => Fails
    | Ok pr =>
        match read p with
        | Off => Fails
        | _ =>
            if can_perform_action pr Read p then
              match query_text hash utf8 (snd (url q)) (raw_query q) with
              | None => Fails
              | Some t =>
                  match plan_of w (fst (url q)) t with
                  | None => Fails
                  | Some pl =>
                      match get_reply (list ascii) tag teqb if_none_match pl with
                      | Refused _ => Fails
                      | NotModified _ => Unmodified
                      | Result _ e => match rows_of w (fst (url q)) t with Some r => Data r e | None => Fails end
                      end
                  end
              end
            else Fails
        end
    end.

  (* ---- the cache ---- *)
  Definition oeqb (a b : option (list ascii)) : bool := match a, b with Some x, Some y => teqb x y | None, None => true | _, _ => false end.
  (* http.rs:61, 652: the headers of Vary *)
  Definition same_vary (a b : get) : bool :=
    (oeqb (authorization a) (authorization b) && oeqb (content_type a) (content_type b) && oeqb (origin a) (origin b) &&
     oeqb (x_seafowl_query a) (x_seafowl_query b))%bool.
  Definition same_url (a b : get) : bool := (teqb (fst (url a)) (fst (url b)) && teqb (snd (url a)) (snd (url b)))%bool.
  (* RFC 9111, 3: what may be stored. Only answers with data are: errors have no Cache-Control (http.rs:587-598) and statuses that are
     not cached without it. *)
  Definition storable (q : get) : bool :=
    negb (shared proxy_ && (private control_ || (negb (public control_) && match authorization q with Some _ => true | None => false end)))%bool.
  (* RFC 9111, 4: which stored answer is selected *)
  Record entry := { asked : get; kept : rows; kept_tag : list ascii; since : nat }.
  Definition selects (q : get) (e : entry) : bool := (same_url (asked e) q && (negb (heeds_vary proxy_) || same_vary (asked e) q))%bool.
  Record state := { data : world; settings : policy; now : nat; store : list entry }.
  Definition put (st : state) (e : entry) (others : list entry) : state :=
    {| data := data st; settings := settings st; now := now st; store := e :: others |}.
  (* RFC 9111, 4.2 and 4.3 *)
  Definition get_step (st : state) (q : get) : state * answer :=
    let others := filter (fun e => negb (selects q e)) (store st) in
    match find (selects q) (store st) with
    | Some e =>
        if Nat.ltb (now st - since e) (max_age control_) then (st, Data (kept e) (kept_tag e))
        else match serve (settings st) (data st) q (Some (kept_tag e)) with
             | Unmodified => (put st {| asked := q; kept := kept e; kept_tag := kept_tag e; since := now st |} others, Data (kept e) (kept_tag e))
             | Data r t => ((if storable q then put st {| asked := q; kept := r; kept_tag := t; since := now st |} others else st), Data r t)
             | Fails => (st, Fails)
             end
    | None =>
        match serve (settings st) (data st) q None with
        | Data r t => ((if storable q then put st {| asked := q; kept := r; kept_tag := t; since := now st |} others else st), Data r t)
        | a => (st, a)
        end
    end.
  (* what happens: requests, changes of data, a restart of the server with other settings, time *)
  Inductive event := Get (q : get) | Change (w : world) | Restart (p : policy) | Tick.
  Definition step (st : state) (ev : event) : state :=
    match ev with
    | Get q => fst (get_step st q)
    | Change w => {| data := w; settings := settings st; now := now st; store := store st |}
    | Restart p => {| data := data st; settings := p; now := now st; store := store st |}
    | Tick => {| data := data st; settings := settings st; now := S (now st); store := store st |}
    end.
  Definition init (w : world) (p : policy) : state := {| data := w; settings := p; now := 0; store := [] |}.
  Definition run (w : world) (p : policy) (evs : list event) : state := fold_left step evs (init w p).
  (* the answer to a request after the given events *)
  Definition reply_to (w : world) (p : policy) (evs : list event) (q : get) : answer := snd (get_step (run w p evs) q).
End Cdn.
