(* The limits of the configuration: the memory of queries (src/config/context.rs, src/config/schema.rs) and the size of uploads
   (src/frontend/http.rs). See LimitSpec.v for what the properties mean and LimitProps.v for the theorems. *)
From Coq Require Import Ascii String List NArith ZArith Bool.
From Verif Require Import PoolModel.
From Verif Require RespModel HttpModel CountModel.
Import ListNotations.
Open Scope N_scope.

(* ---- arithmetic ---- *)
Definition u64_size : N := 2 ^ 64.
(* schema.rs 40 *)
Definition mebibytes : N := 1024 * 1024.
(* [n * MEBIBYTES] of u64 numbers; [checked]: arithmetic overflow panics (None; debug builds), otherwise it wraps around (release builds,
   Cargo.toml 173-181 does not turn the checks on) *)
Definition scaled (checked : bool) (n : N) : option N :=
  let p := n * mebibytes in if (checked && (u64_size <=? p))%bool then None else Some (p mod u64_size).
(* The whole number nearest to [x] that has 53 significant bits, ties to even: how an f64 represents it. The rounding does not depend on the
   exponent, so [round53 x] in units of 2^-k is the f64 nearest to x * 2^-k. *)
Definition round53 (x : N) : N :=
  let s := N.size x - 53 in
  let u := 2 ^ s in
  let q := x / u in let r := x mod u in
  (if ((u <? 2 * r) || ((u =? 2 * r) && N.odd q))%bool then q + 1 else q) * u.
(* schema.rs 38 MEMORY_FRACTION, the f64 0.7, in units of 2^-53 *)
Definition memory_fraction : N := 6305039478318694.
(* context.rs 140: ((max_memory * MEBIBYTES) as f64 * MEMORY_FRACTION) as usize. The last conversion cuts fractions off and saturates.
   Simplified: usize has 64 bits. *)
Definition pool_size (checked : bool) (max_memory : N) : option N :=
  match scaled checked max_memory with
  | None => None
  | Some b => Some (N.min (round53 (round53 b * memory_fraction) / 2 ^ 53) (u64_size - 1))
  end.
(* context.rs 137-144; None: a panic *)
Definition build_pool (checked : bool) (max_memory : option N) : option pool :=
  match max_memory with
  | None => Some Unbounded
  | Some m => match pool_size checked m with Some p => Some (Greedy (Z.of_N p)) | None => None end
  end.

(* ---- uploads ---- *)
(* http.rs 629: warp::multipart::form().max_length(..), which is warp::body::content_length_limit. [length]: the header Content-Length (a
   body of another length does not reach warp; None: missing or not a number). [None]: the body is taken, otherwise the status of the refusal. *)
Definition form_filter (limit : N) (length : option N) : option nat :=
  match length with None => Some 411%nat | Some n => if n <=? limit then None else Some 413%nat end.
(* A request to upload, as CountModel.v has it *)
Record request := { path : list ascii; auth : option (list ascii); content_length : option N; status : nat (* what the handler answers *) }.
Definition as_http (limit : N) (q : request) : CountModel.http_request :=
  {| CountModel.verb := RespModel.Post; CountModel.path := path q; CountModel.auth := auth q; CountModel.json := false;
     CountModel.form := form_filter limit (content_length q); CountModel.answers := fun _ => status q |}.
(* The answer of a server that was started with this setting; None: it has panicked (http.rs 629 runs when the routes are made) *)
Definition answer (hash : list ascii -> list ascii) (policy : HttpModel.policy) (checked : bool) (upload_data_max_length : N) (q : request) : option nat :=
  match scaled checked upload_data_max_length with
  | None => None
  | Some limit => Some (CountModel.answered hash policy (as_http limit q))
  end.
