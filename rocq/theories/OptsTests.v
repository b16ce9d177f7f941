(* The vectors of the unit tests of /repo/object_store_factory/src (aws.rs:300-672, google.rs:145-410, local.rs:56-160, lib.rs:226-360), replayed
   through OptsModel.v. These are tests of the model, not proofs. *)
From Coq Require Import Ascii String List Bool.
From Verif Require Import OptsModel.
Import ListNotations.
Local Open Scope string_scope.

(* The keys of the client that no test uses *)
Definition none_other (_ : string) : option string := None.
Definition no_client (_ : string) : bool := false.
Definition s3 (r i s t e : option string) (p : option string) : s3_config :=
  {| region := r; access_key_id := i; secret_access_key := s; session_token := t; endpoint := e; bucket := "my-bucket"; prefix := p; allow_http := true; skip_signature := true |}.

(* aws.rs: test_config_from_hashmap_with_all_fields, _with_missing_optional_fields, _without_required_fields *)
Example s3_from_hashmap_all :
  from_hashmap [("region", "us-west-2"); ("access_key_id", "access_key"); ("secret_access_key", "secret_key"); ("session_token", "session_token");
                ("endpoint", "http://localhost:9000"); ("bucket", "my-bucket"); ("prefix", "my-prefix")]
  = Built (s3 (Some "us-west-2") (Some "access_key") (Some "secret_key") (Some "session_token") (Some "http://localhost:9000") (Some "my-prefix")).
Proof. reflexivity. Qed.
Example s3_from_hashmap_missing : from_hashmap [("region", "us-west-2"); ("bucket", "my-bucket")] = Built (s3 (Some "us-west-2") None None None None None).
Proof. reflexivity. Qed.
Example s3_from_hashmap_panics : from_hashmap [] = Panicked.
Proof. reflexivity. Qed.
(* test_build_amazon_s3_from_config_with_all_fields: the keys win over skip_signature; _with_missing_optional_fields *)
Example s3_build_all :
  build_amazon_s3 (s3 (Some "us-west-2") (Some "access_key") (Some "secret_key") (Some "session_token") (Some "http://localhost:9000") (Some "my-prefix"))
  = Built {| s_bucket := "my-bucket"; s_region := "us-west-2"; s_endpoint := Some "http://localhost:9000"; s_allow_http := true; s_auth := Static "access_key" "secret_key" (Some "session_token") |}.
Proof. reflexivity. Qed.
Example s3_build_missing :
  build_amazon_s3 (s3 (Some "us-west-2") None None None None None)
  = Built {| s_bucket := "my-bucket"; s_region := "us-west-2"; s_endpoint := None; s_allow_http := true; s_auth := Unsigned |}.
Proof. reflexivity. Qed.
(* test_map_options_into_amazon_s3_config_keys_{with_valid_keys, with_invalid_key, with_mixed_keys, empty_input} *)
Example s3_map_valid :
  option_map (fun m => map (s3_lookup m) [AccessKeyId; SecretAccessKey; Region; Bucket])
    (map_options none_other [("access_key_id", "ACCESS_KEY"); ("secret_access_key", "SECRET_KEY"); ("region", "us-west-2"); ("bucket", "my-bucket")])
  = Some [Some "ACCESS_KEY"; Some "SECRET_KEY"; Some "us-west-2"; Some "my-bucket"].
Proof. reflexivity. Qed.
Example s3_map_invalid :
  map_options none_other [("invalid_key", "some_value")] = None /\
  map_options none_other [("access_key_id", "ACCESS_KEY"); ("invalid_key", "some_value"); ("bucket", "my-bucket")] = None /\
  map_options none_other [] = Some [].
Proof. repeat split. Qed.
(* test_to_hashmap, test_to_hashmap_with_none_fields *)
Definition s3_keys : list s3_key := [Region; AccessKeyId; SecretAccessKey; Token; Endpoint; AllowHttp; SkipSignature].
Example s3_to_hashmap :
  map (fun k => lookup (to_hashmap (s3 (Some "us-west-1") (Some "ACCESS_KEY") (Some "SECRET_KEY") (Some "SESSION_TOKEN") (Some "https://s3.amazonaws.com") (Some "my_prefix"))) (as_ref k)) s3_keys
  = [Some "us-west-1"; Some "ACCESS_KEY"; Some "SECRET_KEY"; Some "SESSION_TOKEN"; Some "https://s3.amazonaws.com"; Some "true"; Some "true"] /\
  map (fun k => lookup (to_hashmap (s3 None None None None None None)) (as_ref k)) s3_keys = [None; None; None; None; None; Some "true"; Some "true"].
Proof. split; reflexivity. Qed.
(* test_s3_opts_to_file_io_props *)
Example s3_file_io :
  map (lookup (file_io_prop SkipSignature "true" [])) ["s3.allow-anonymous"; "s3.disable-ec2-metadata"; "s3.disable-config-load"; "s3.region"]
  = [Some "true"; Some "true"; Some "true"; Some "dummy-region"].
Proof. reflexivity. Qed.

(* google.rs: test_config_from_hashmap_with_all_fields, _with_missing_optional_fields, _without_bucket *)
Example gcs_from :
  gcs_from_hashmap [("bucket", "my-bucket"); ("prefix", "my-prefix"); ("google_application_credentials", "/path/to/credentials.json")]
  = Built {| g_bucket := "my-bucket"; g_prefix := Some "my-prefix"; g_credentials := Some "/path/to/credentials.json" |} /\
  gcs_from_hashmap [("bucket", "my-bucket")] = Built {| g_bucket := "my-bucket"; g_prefix := None; g_credentials := None |} /\
  gcs_from_hashmap [] = Panicked.
Proof. repeat split. Qed.
(* test_map_options_into_google_config_keys_{with_valid_keys, with_invalid_key, with_mixed_keys, empty_input} *)
Example gcs_map :
  option_map (fun m => map (gcs_lookup m) [ServiceAccount; GcsBucket; ServiceAccountKey])
    (gcs_map_options no_client [("google_service_account", "my_google_service_account"); ("bucket", "my-bucket"); ("google_service_account_key", "my_google_service_account_key")])
  = Some [Some "my_google_service_account"; Some "my-bucket"; Some "my_google_service_account_key"] /\
  gcs_map_options no_client [("invalid_key", "some_value")] = None /\
  gcs_map_options no_client [("invalid_key", "some_value"); ("bucket", "my-bucket")] = None /\
  gcs_map_options no_client [] = Some [].
Proof. repeat split. Qed.
(* test_to_hashmap, test_to_hashmap_with_none_fields *)
Example gcs_to :
  map (lookup (gcs_to_hashmap {| g_bucket := "my_bucket"; g_prefix := Some "my_prefix"; g_credentials := Some "path/to/credentials.json" |}))
    ["google_bucket"; "prefix"; "google_application_credentials"] = [Some "my_bucket"; Some "my_prefix"; Some "path/to/credentials.json"] /\
  map (lookup (gcs_to_hashmap {| g_bucket := "my_bucket"; g_prefix := None; g_credentials := None |}))
    ["google_bucket"; "prefix"; "google_application_credentials"] = [Some "my_bucket"; None; None].
Proof. split; reflexivity. Qed.

(* local.rs: test_config_from_hashmap_{with_data_dir, with_disable_hardlinks, with_disable_hardlinks_false, without_data_dir}, test_to_hashmap *)
Example local_from :
  map local_from_hashmap [ [("data_dir", "/tmp/data")]; [("data_dir", "/tmp/data"); ("disable_hardlinks", "true")];
                           [("data_dir", "/tmp/data"); ("disable_hardlinks", "false")]; [] ]
  = [ Built {| data_dir := "/tmp/data"; disable_hardlinks := false |}; Built {| data_dir := "/tmp/data"; disable_hardlinks := true |};
      Built {| data_dir := "/tmp/data"; disable_hardlinks := false |}; Failed ].
Proof. reflexivity. Qed.
Example local_to :
  map (lookup (local_to_hashmap {| data_dir := "path/to/data"; disable_hardlinks := true |})) ["data_dir"; "disable_hardlinks"] = [Some "path/to/data"; Some "true"].
Proof. reflexivity. Qed.

(* lib.rs: test_build_aws_object_store. The test runs with the network; the region found there is a parameter of the model. *)
Definition env_keys : list (string * string) := [("AWS_ACCESS_KEY_ID", "env-key"); ("AWS_SECRET_ACCESS_KEY", "env-secret")].
Example aws_object_store :
  map (fun o => match build_from_options none_other (Some "us-east-1") env_keys "my-bucket" o with Built s => Some (s_bucket s, s_auth s) | _ => None end)
    [ []; [("access_key_id", "my-key"); ("secret_access_key", "my-secret")] ]
  = [ Some ("my-bucket", Static "env-key" "env-secret" None); Some ("my-bucket", Static "my-key" "my-secret" None) ].
Proof. reflexivity. Qed.
