(* The cases of the project's own unit tests of the access policy (src/auth.rs 142-333) and of the HTTP frontend (src/frontend/http.rs 671-1683), run
   through the models of HttpModel.v and RespModel.v. They are tests of the models, not proofs: they show that the models give the principals, refusals,
   hashes, ETags and bodies the project expects of the code. The hash is SHA-256 itself here (Sha256.v). *)
From Coq Require Import Ascii String List Arith NArith Bool.
From Verif Require Import Sha256 HttpModel.
From Verif Require RespModel.
Import ListNotations.
Open Scope list_scope.

Ltac run := vm_compute; repeat split; reflexivity.

(* utils.rs 223-240: test_hash_file *)
Example hash_file : sha256 (s_ "test") = s_ "9f86d081884c7d659a2feaa0c55ad015a3bf4f1b2b0b822cd15d6c15b0f00a08". Proof. run. Qed.

(* ---- auth.rs ---- *)
Definition READ_PW : list ascii := s_ "read_password".
Definition WRITE_PW : list ascii := s_ "write_password".
(* AccessPolicy::free_for_all, with_write_password, ... (auth.rs 30-66): the policy keeps the hash of the password *)
Definition pw (t : list ascii) : access := Password (sha256 t).
Definition free_for_all : policy := {| read := Any; write := Any |}.
Definition need_write_pw : policy := {| read := Any; write := pw WRITE_PW |}.
Definition read_only_write_off : policy := {| read := Any; write := Off |}.
Definition read_pw_write_off : policy := {| read := pw READ_PW; write := Off |}.
Definition read_pw_write_pw : policy := {| read := pw READ_PW; write := pw WRITE_PW |}.
Notation principal_of := (token_to_principal sha256).
Definition can (pr : principal) (p : policy) (r w : bool) : Prop := can_perform_action pr Read p = r /\ can_perform_action pr Write p = w.
Example all_allowed_disallows_token : principal_of (Some READ_PW) free_for_all = Err UselessAccessToken. Proof. run. Qed.
Example all_allowed_anon : principal_of None free_for_all = Ok Anonymous /\ can Anonymous free_for_all true true. Proof. run. Qed.
Example write_pw_wrong_token : principal_of (Some READ_PW) need_write_pw = Err WrongAccessToken. Proof. run. Qed.
Example write_pw_correct_token_can_read_write : principal_of (Some WRITE_PW) need_write_pw = Ok Writer /\ can Writer need_write_pw true true. Proof. run. Qed.
Example write_pw_anonymous_only_read : principal_of None need_write_pw = Ok Anonymous /\ can Anonymous need_write_pw true false. Proof. run. Qed.
Example read_only_disallows_token : principal_of (Some READ_PW) read_only_write_off = Err UselessAccessToken. Proof. run. Qed.
Example read_only_can_read_cant_write : principal_of None read_only_write_off = Ok Anonymous /\ can Anonymous read_only_write_off true false. Proof. run. Qed.
Example read_pw_write_off_disallows_anon : principal_of None read_pw_write_off = Err NeedAccessToken. Proof. run. Qed.
Example read_pw_write_off_only_read : principal_of (Some READ_PW) read_pw_write_off = Ok Reader /\ can Reader read_pw_write_off true false. Proof. run. Qed.
Example read_write_pw_disallows_anon : principal_of None read_pw_write_pw = Err NeedAccessToken. Proof. run. Qed.
Example read_write_pw_reader_can_only_read : principal_of (Some READ_PW) read_pw_write_pw = Ok Reader /\ can Reader read_pw_write_pw true false. Proof. run. Qed.
Example read_write_pw_writer_can_read_write : principal_of (Some WRITE_PW) read_pw_write_pw = Ok Writer /\ can Writer read_pw_write_pw true true. Proof. run. Qed.

(* ---- http.rs: the text of a cached query ---- *)
Definition SELECT_QUERY : list ascii := s_ "SELECT COUNT(*) AS c FROM test_table".
Definition PERCENT_ENCODED_SELECT_QUERY : list ascii := s_ "SELECT%20COUNT(*)%20AS%20c%20FROM%20test_table".
Definition BAD_PERCENT_ENCODED_SELECT_QUERY : list ascii := s_ "%99SELECT%0A%20%20COUNT(*)%20AS%20c%0AFROM%20test_table".
Definition SELECT_QUERY_HASH : list ascii := s_ "7fbbf7dddfd330d03e5e08cc5885ad8ca823e1b56e7cbadd156daa0e21c288f6".
(* the texts here are ASCII or not UTF-8 *)
Definition ascii_only (t : list ascii) : bool := forallb (fun c => Nat.ltb (nat_of_ascii c) 128) t.
Notation text_of := (query_text sha256 ascii_only).
(* lines 868-881: test_get_cached_hash_mismatch *)
Example cached_hash_mismatch : text_of (s_ "wrong-hash") (Some SELECT_QUERY) = None. Proof. run. Qed.
(* lines 937-994: test_get_cached_no_etag, with both extensions; the body and the header enter the model the same way *)
Example cached_query_in_path : text_of PERCENT_ENCODED_SELECT_QUERY None = Some SELECT_QUERY /\ text_of (PERCENT_ENCODED_SELECT_QUERY ++ s_ ".bin") None = Some SELECT_QUERY.
Proof. run. Qed.
Example cached_query_in_header :
  text_of SELECT_QUERY_HASH (Some SELECT_QUERY) = Some SELECT_QUERY /\ text_of (SELECT_QUERY_HASH ++ s_ ".bin") (Some SELECT_QUERY) = Some SELECT_QUERY.
Proof. run. Qed.
Example cached_encoded_query_in_header :
  text_of SELECT_QUERY_HASH (Some PERCENT_ENCODED_SELECT_QUERY) = Some SELECT_QUERY /\
  text_of (SELECT_QUERY_HASH ++ s_ ".bin") (Some PERCENT_ENCODED_SELECT_QUERY) = Some SELECT_QUERY.
Proof. run. Qed.
(* lines 998-1015: test_get_cached_hash_no_query: the hash itself is taken for the query *)
Example cached_hash_no_query : text_of SELECT_QUERY_HASH None = Some SELECT_QUERY_HASH. Proof. run. Qed.
(* lines 1041-1055: test_query_bad_encoding *)
Example query_bad_encoding : text_of (SELECT_QUERY_HASH ++ s_ ".bin") (Some BAD_PERCENT_ENCODED_SELECT_QUERY) = None. Proof. run. Qed.

(* ---- http.rs: ETags ---- *)
(* json!(bytes).to_string(), http.rs 103: a JSON array of numbers *)
Definition digit (n : N) : ascii := ascii_of_N (48 + n).
Definition decimal (b : N) : list ascii :=
  if (b <? 10)%N then [digit b]
  else if (b <? 100)%N then [digit (b / 10); digit (b mod 10)]
  else [digit (b / 100); digit (b / 10 mod 10); digit (b mod 10)].
Fixpoint json_items (l : list N) : list ascii :=
  match l with [] => [] | [b] => decimal b | b :: l => decimal b ++ s_ "," ++ json_items l end.
Definition json_bytes (l : list N) : list ascii := s_ "[" ++ json_items l ++ s_ "]".
Definition etag_hash (l : list N) : list ascii := sha256 (json_bytes l).
(* The tests make UUIDs from a counter (http.rs 809-817); the in-memory store has the root memory:///. The query of the tests: an aggregation and a
   projection over a scan. *)
Definition table_uri : list N := map N_of_ascii (s_ "memory:///00000000-0000-0000-0000-000000000001").
Definition select_plan (version : N) : plan := Node (ORel 0) [Node (ORel 1) [Node (OScan (Delta table_uri version)) [] []] []] [].
(* the constants of lines 804-807, recorded by the project: after one INSERT and after two *)
Definition V1_ETAG : list ascii := s_ "37ff2380efb2e1ba86ad7204998cb7541b32196f4604c85e03cf74f6f9fd75b0".
Definition V2_ETAG : list ascii := s_ "35a334f8ea79ff5e8c79ed3c8083ec2910a9404d56b71cf853b44f979fc0b7fa".
Example etag_v1 : plan_to_etag _ etag_hash (select_plan 1) = V1_ETAG. Proof. run. Qed.
Example etag_v2 : plan_to_etag _ etag_hash (select_plan 2) = V2_ETAG. Proof. run. Qed.
(* lines 955-994, 1020-1036, 1059-1080: test_get_cached_no_etag, test_get_cached_reuse_etag, test_get_cached_etag_new_version *)
Example cached_no_etag : get_reply _ etag_hash teqb None (select_plan 1) = Result _ V1_ETAG. Proof. run. Qed.
Example cached_reuse_etag : get_reply _ etag_hash teqb (Some V1_ETAG) (select_plan 1) = NotModified _. Proof. run. Qed.
Example cached_etag_new_version : get_reply _ etag_hash teqb (Some V1_ETAG) (select_plan 2) = Result _ V2_ETAG. Proof. run. Qed.
(* lines 918-933: test_get_cached_write_query_error *)
Example cached_write_query_error : get_reply _ etag_hash teqb None (Node ODdl [] []) = Refused _. Proof. run. Qed.

(* ---- http.rs: access ---- *)
Definition bearer_of (t : string) : option (list ascii) := Some (s_ "Bearer " ++ s_ t).
Definition write_pw : policy := {| read := Any; write := pw (s_ "somepw") |}.
Definition read_pw : policy := {| read := pw (s_ "somepw"); write := Any |}.
Definition both_pw : policy := {| read := pw (s_ "somereadpw"); write := pw (s_ "somepw") |}.
Notation who := (header_to_principal sha256).
(* the outcome of POST /q: the refusal of the header, or what is carried out (None: refused) *)
Definition post (h : option (list ascii)) (p : policy) (ss : list stmt) : res (option (list stmt)) :=
  match who h p with Err e => Err e | Ok pr => Ok (post_query pr p ss (fun _ => true)) end.
(* GET /q/...: lines 269-287 *)
Definition may_get (h : option (list ascii)) (p : policy) : res bool :=
  match who h p with Err e => Err e | Ok pr => Ok (match read p with Off => false | _ => can_perform_action pr Read p end) end.
Example password_read_anonymous_cant_cached_get : may_get None read_pw = Ok false. Proof. run. Qed.
Example password_read_reader_can_cached_get : may_get (bearer_of "somepw") read_pw = Ok true. Proof. run. Qed.
Example disabled_read_disabled_cached_get : may_get None {| read := Off; write := Any |} = Ok false. Proof. run. Qed.
Example password_writes_anonymous_can_read : post None write_pw [SQuery false] = Ok (Some [SQuery false]). Proof. run. Qed.
Example password_writes_writer_can_write : post (bearer_of "somepw") write_pw [SOther] = Ok (Some [SOther]). Proof. run. Qed.
Example password_writes_anonymous_cant_write : post None write_pw [SOther] = Ok None. Proof. run. Qed.
Example password_read_writes_anonymous_cant_access : post None both_pw [SQuery false] = Err NeedAccessToken. Proof. run. Qed.
Example password_read_writes_reader_cant_write : post (bearer_of "somereadpw") both_pw [SOther] = Ok None. Proof. run. Qed.
Example password_read_writes_writer_can_write : post (bearer_of "somepw") both_pw [SOther] = Ok (Some [SOther]). Proof. run. Qed.
Example read_only_anonymous_cant_write : post None read_only_write_off [SOther] = Ok None. Proof. run. Qed.
Example read_only_useless_access_token : post (bearer_of "somepw") read_only_write_off [SOther] = Err UselessAccessToken. Proof. run. Qed.
Example password_writes_anonymous_wrong_token : post (bearer_of "otherpw") write_pw [SQuery false] = Err WrongAccessToken. Proof. run. Qed.
Example password_writes_anonymous_invalid_header : post (Some (s_ "InvalidAuthzHeader")) write_pw [SQuery false] = Err InvalidAuthorizationHeader. Proof. run. Qed.
Example multi_statement_no_reads : post (bearer_of "somepw") write_pw [SOther; SOther; SInsert] = Ok (Some [SOther; SOther; SInsert]). Proof. run. Qed.
Example multi_statement_read_at_end :
  post (bearer_of "somepw") write_pw [SOther; SOther; SInsert; SQuery false] = Ok (Some [SOther; SOther; SInsert; SQuery false]).
Proof. run. Qed.
Example multi_statement_read_not_at_end_error : post (bearer_of "somepw") write_pw [SQuery false; SOther; SOther; SInsert] = Ok None. Proof. run. Qed.
Example multi_statement_multiple_reads_error : post (bearer_of "somepw") write_pw [SOther; SOther; SInsert; SQuery false; SQuery false] = Ok None. Proof. run. Qed.

(* ---- http.rs: status codes and bodies ---- *)
Example statuses :
  map RespModel.status_code
    [RespModel.HashMismatch; RespModel.NotReadOnlyQuery; RespModel.DataFusionError RespModel.SqlError; RespModel.QueryDecodeError;
     RespModel.DataFusionError RespModel.PlanError; RespModel.ReadForbidden; RespModel.ReadOnlyEndpointDisabled; RespModel.WriteForbidden;
     RespModel.NeedAccessToken; RespModel.UselessAccessToken; RespModel.WrongAccessToken; RespModel.InvalidAuthorizationHeader; RespModel.InvalidMultiStatement]
  = [400; 405; 400; 400; 400; 403; 405; 403; 401; 400; 401; 401; 400].
Proof. run. Qed.
Definition nl : list ascii := [RespModel.newline].
(* lines 1199-1212: test_error_execution: status 200, the message is the body *)
Example error_execution :
  let m := s_ "Cast error: Cannot cast string 'notanint' to value of Int32 type" in
  let r := RespModel.post_answer (RespModel.Streamed [RespModel.Failure m]) in RespModel.status r = 200 /\ RespModel.body r = m.
Proof. run. Qed.
(* lines 1508-1536: test_multi_statement_no_reads *)
Example body_hey : RespModel.batch_to_json [[(s_ "key", RespModel.Text (s_ "hey"))]] = s_ "{""key"":""hey""}" ++ nl. Proof. run. Qed.
(* lines 1605-1682: test_http_type_conversion_and_timing_header, without its two arrays *)
Definition number (t : string) : RespModel.cell := RespModel.Number (s_ t).
Definition string_ (t : string) : RespModel.cell := RespModel.Text (s_ t).
Example type_conversion :
  RespModel.batch_to_json
    [[(s_ "tinyint_val", number "1"); (s_ "smallint_val", number "1000"); (s_ "integer_val", number "1000000"); (s_ "bigint_val", number "1000000000");
      (s_ "char_val", string_ "c"); (s_ "varchar_val", string_ "varchar"); (s_ "text_val", string_ "text"); (s_ "string_val", string_ "string");
      (s_ "float_val", number "12.345"); (s_ "real_val", number "12.345"); (s_ "double_val", number "12.345678910111213"); (s_ "bool_val", RespModel.Flag true);
      (s_ "date_val", string_ "2022-01-01"); (s_ "timestamp_val", string_ "2022-01-01T12:03:11.123456")]]
  = s_ "{""tinyint_val"":1,""smallint_val"":1000,""integer_val"":1000000,""bigint_val"":1000000000,""char_val"":""c"",""varchar_val"":""varchar"",""text_val"":""text"",""string_val"":""string"",""float_val"":12.345,""real_val"":12.345,""double_val"":12.345678910111213,""bool_val"":true,""date_val"":""2022-01-01"",""timestamp_val"":""2022-01-01T12:03:11.123456""}" ++ nl.
Proof. run. Qed.
(* make_uri (lines 788-793): the routes of the tests *)
Example routes :
  RespModel.request RespModel.Get (s_ "/q/wrong-hash") = RespModel.ReadQuery (s_ "default") (s_ "wrong-hash") /\
  RespModel.request RespModel.Get (s_ "/test_db/q/wrong-hash") = RespModel.ReadQuery (s_ "test_db") (s_ "wrong-hash") /\
  RespModel.request RespModel.Post (s_ "/q") = RespModel.RunQuery (s_ "default") /\ RespModel.request RespModel.Post (s_ "/test_db/q") = RespModel.RunQuery (s_ "test_db").
Proof. run. Qed.
