(* Model of the options of object stores (object_store_factory/src/{lib,aws,google,local}.rs), of external tables on buckets
   (src/context/physical.rs) and of the properties passed to Iceberg. See OptsSpec.v and OptsProps.v. *)
From Coq Require Import Ascii String List Bool.
Import ListNotations.
Open Scope string_scope.

(* A HashMap: pairs in the order of iteration; [lookup] finds the first, [put] replaces *)
Notation options := (list (string * string)) (only parsing).
Fixpoint lookup (o : options) (k : string) : option string :=
  match o with [] => None | (k', v) :: r => if String.eqb k' k then Some v else lookup r k end.
Definition put (k v : string) (o : options) : options := (k, v) :: filter (fun kv => negb (String.eqb (fst kv) k)) o.

(* object_store's AmazonS3ConfigKey (0.11.2). Keys that nothing here depends on are [OtherS3] with their canonical name. *)
Inductive s3_key := AccessKeyId | SecretAccessKey | Region | Bucket | Endpoint | Token | SkipSignature | AllowHttp | ConditionalPut | DefaultRegion | OtherS3 (name : string).
Definition s3_key_eqb (a b : s3_key) : bool :=
  match a, b with
  | AccessKeyId, AccessKeyId | SecretAccessKey, SecretAccessKey | Region, Region | Bucket, Bucket | Endpoint, Endpoint | Token, Token
  | SkipSignature, SkipSignature | AllowHttp, AllowHttp | ConditionalPut, ConditionalPut | DefaultRegion, DefaultRegion => true
  | OtherS3 x, OtherS3 y => String.eqb x y
  | _, _ => false
  end.
Definition among (s : string) (l : list string) : bool := existsb (String.eqb s) l.
(* AmazonS3ConfigKey::as_ref *)
Definition as_ref (k : s3_key) : string :=
  match k with
  | AccessKeyId => "aws_access_key_id" | SecretAccessKey => "aws_secret_access_key" | Region => "aws_region" | Bucket => "aws_bucket" | Endpoint => "aws_endpoint"
  | Token => "aws_session_token" | SkipSignature => "aws_skip_signature" | AllowHttp => "allow_http" | ConditionalPut => "aws_conditional_put" | DefaultRegion => "aws_default_region" | OtherS3 n => n
  end.
Section Keys.
  (* The other names that object_store knows, and their canonical names *)
  Variable other_key : string -> option string.
  (* AmazonS3ConfigKey::from_str *)
  Definition s3_key_of (s : string) : option s3_key :=
    if among s ["aws_access_key_id"; "access_key_id"] then Some AccessKeyId
    else if among s ["aws_secret_access_key"; "secret_access_key"] then Some SecretAccessKey
    else if among s ["aws_region"; "region"] then Some Region
    else if among s ["aws_bucket"; "aws_bucket_name"; "bucket_name"; "bucket"] then Some Bucket
    else if among s ["aws_endpoint_url"; "aws_endpoint"; "endpoint_url"; "endpoint"] then Some Endpoint
    else if among s ["aws_session_token"; "aws_token"; "session_token"; "token"] then Some Token
    else if among s ["aws_skip_signature"; "skip_signature"] then Some SkipSignature
    else if among s ["aws_allow_http"; "allow_http"] then Some AllowHttp
    else if among s ["aws_conditional_put"; "conditional_put"] then Some ConditionalPut
    else if among s ["aws_default_region"; "default_region"] then Some DefaultRegion
    else match other_key s with Some n => Some (OtherS3 n) | None => None end.

  (* Maps from keys, as [lookup] and [put] *)
  Notation s3_options := (list (s3_key * string)) (only parsing).
  Fixpoint s3_lookup (o : s3_options) (k : s3_key) : option string :=
    match o with [] => None | (k', v) :: r => if s3_key_eqb k' k then Some v else s3_lookup r k end.
  Definition s3_or_insert (k : s3_key) (v : string) (o : s3_options) : s3_options := match s3_lookup o k with Some _ => o | None => (k, v) :: o end.

  (* aws.rs 189-206 map_options_into_amazon_s3_config_keys. A later pair hides an earlier one. None: unknown key. *)
  Definition map_options (o : options) : option s3_options :=
    fold_left (fun acc kv => match acc, s3_key_of (fst kv) with Some m, Some k => Some ((k, snd kv) :: m) | _, _ => None end) o (Some []).

  (* aws.rs 208-222 add_amazon_s3_specific_options. [detected]: the region the network tells; None: unwrap panics. *)
  Definition add_specific (detected : option string) (m : s3_options) : option s3_options :=
    match (match s3_lookup m Region, s3_lookup m Endpoint with
           | None, None => match detected with Some r => Some ((Region, r) :: m) | None => None end
           | _, _ => Some m
           end) with
    | Some m => Some (s3_or_insert ConditionalPut "etag" m)
    | None => None
    end.

  (* aws.rs 224-247 add_amazon_s3_environment_variables *)
  Definition lower_ascii (c : ascii) : ascii := let n := nat_of_ascii c in if (Nat.leb 65 n && Nat.leb n 90)%bool then ascii_of_nat (n + 32) else c.
  Fixpoint lower (s : string) : string := match s with EmptyString => EmptyString | String c r => String (lower_ascii c) (lower r) end.
  Definition add_variable (m : s3_options) (var : string * string) : s3_options :=
    if String.prefix "AWS_" (fst var) then match s3_key_of (lower (fst var)) with Some k => s3_or_insert k (snd var) m | None => m end else m.
  Definition add_environment (env : options) (m : s3_options) : s3_options :=
    let m := fold_left add_variable env m in
    match lookup env "ALLOW_HTTP" with Some v => if String.eqb v "true" then s3_or_insert AllowHttp "true" m else m | None => m end.

  (* ---- The store that results ---- *)
  (* How requests are signed: not at all, with the given keys, or with what the environment of the machine offers *)
  Inductive auth := Unsigned | Static (id secret : string) (token : option string) | Ambient.
  Record s3_store := { s_bucket : string; s_region : string; s_endpoint : option string; s_allow_http : bool; s_auth : auth }.
  Inductive result (A : Type) := Built (a : A) | Failed | Panicked.
  Arguments Built {A} a. Arguments Failed {A}. Arguments Panicked {A}.
  (* object_store's parse of a boolean option *)
  Definition parse_bool (s : string) : option bool :=
    if among (lower s) ["1"; "true"; "on"; "yes"; "y"] then Some true else if among (lower s) ["0"; "false"; "off"; "no"; "n"] then Some false else None.
  Definition bool_option (v : option string) : option bool := match v with None => Some false | Some s => parse_bool s end.
  (* AmazonS3Builder::build: both keys or none; skip_signature wins over the keys; the region is the default region, or us-east-1, if there is none *)
  Definition build_s3 (bucket : string) (get : s3_key -> option string) : result s3_store :=
    match bool_option (get SkipSignature), bool_option (get AllowHttp) with
    | Some skip, Some http =>
        match (match get AccessKeyId, get SecretAccessKey with
               | Some i, Some s => Some (Static i s (get Token))
               | None, None => Some Ambient
               | _, _ => None
               end) with
        | Some a => Built {| s_bucket := bucket; s_region := match get Region, get DefaultRegion with Some r, _ => r | None, Some r => r | None, None => "us-east-1" end; s_endpoint := get Endpoint;
                             s_allow_http := http; s_auth := if skip then Unsigned else a |}
        | None => Failed
        end
    | _, _ => Failed
    end.
  (* lib.rs 136-189 build_object_store_from_opts, S3: the bucket is the host of the URL *)
  Definition build_from_options (detected : option string) (env : options) (bucket : string) (o : options) : result s3_store :=
    match map_options o with
    | None => Failed
    | Some m => match add_specific detected m with None => Panicked | Some m => build_s3 bucket (s3_lookup (add_environment env m)) end
    end.

  (* ---- Configurations ---- *)
  (* aws.rs 18-31 S3Config *)
  Record s3_config := { region : option string; access_key_id : option string; secret_access_key : option string; session_token : option string; endpoint : option string;
                        bucket : string; prefix : option string; allow_http : bool; skip_signature : bool }.
  Definition show_bool (b : bool) : string := if b then "true" else "false".
  Definition opt_pair (k : s3_key) (v : option string) : options := match v with Some v => [(as_ref k, v)] | None => [] end.
  (* aws.rs 96-139 to_hashmap: different keys, in some order *)
  Definition to_hashmap (c : s3_config) : options :=
    opt_pair Region (region c) ++ opt_pair AccessKeyId (access_key_id c) ++ opt_pair SecretAccessKey (secret_access_key c) ++ opt_pair Token (session_token c)
    ++ opt_pair Endpoint (endpoint c) ++ [(as_ref AllowHttp, show_bool (allow_http c)); (as_ref SkipSignature, show_bool (skip_signature c))].
  Definition not_false (v : option string) : bool := match v with Some s => negb (String.eqb s "false") | None => true end.
  (* aws.rs 54-71 from_hashmap: map.get("bucket").unwrap() *)
  Definition from_hashmap (o : options) : result s3_config :=
    match lookup o "bucket" with
    | None => Panicked
    | Some b => Built {| region := lookup o "region"; access_key_id := lookup o "access_key_id"; secret_access_key := lookup o "secret_access_key";
                         session_token := lookup o "session_token"; endpoint := lookup o "endpoint"; bucket := b; prefix := lookup o "prefix";
                         allow_http := not_false (lookup o "allow_http"); skip_signature := not_false (lookup o "skip_signature") |}
    end.
  (* aws.rs 73-94 from_bucket_and_options *)
  Definition from_bucket_and_options (b : string) (o : options) : s3_config :=
    {| region := lookup o "format.region"; access_key_id := lookup o "format.access_key_id"; secret_access_key := lookup o "format.secret_access_key";
       session_token := lookup o "format.session_token"; endpoint := lookup o "format.endpoint"; bucket := b; prefix := None;
       allow_http := not_false (lookup o "format.allow_http"); skip_signature := not_false (lookup o "format.skip_signature") |}.
  (* aws.rs 145-176 build_amazon_s3, through AmazonS3Builder::build *)
  Definition build_amazon_s3 (c : s3_config) : result s3_store :=
    let r := match region c with Some r => r | None => "" end in
    let made a := Built {| s_bucket := bucket c; s_region := r; s_endpoint := endpoint c; s_allow_http := allow_http c; s_auth := a |} in
    match access_key_id c, secret_access_key c with
    | Some i, Some s => made (Static i s (session_token c))
    | _, _ => if skip_signature c then made Unsigned else Panicked
    end.
  (* google.rs 10-59 GCSConfig, and local.rs 6-44 LocalConfig *)
  Record gcs_config := { g_bucket : string; g_prefix : option string; g_credentials : option string }.
  Definition gcs_to_hashmap (c : gcs_config) : options :=
    ("google_bucket", g_bucket c) :: match g_prefix c with Some p => [("prefix", p)] | None => [] end
    ++ match g_credentials c with Some p => [("google_application_credentials", p)] | None => [] end.
  Definition gcs_from_hashmap (o : options) : result gcs_config :=
    match lookup o "bucket" with None => Panicked | Some b => Built {| g_bucket := b; g_prefix := lookup o "prefix"; g_credentials := lookup o "google_application_credentials" |} end.
  Record local_config := { data_dir : string; disable_hardlinks : bool }.
  Definition local_to_hashmap (c : local_config) : options := [("data_dir", data_dir c); ("disable_hardlinks", show_bool (disable_hardlinks c))].
  Definition local_from_hashmap (o : options) : result local_config :=
    match lookup o "data_dir" with
    | None => Failed
    | Some d => Built {| data_dir := d; disable_hardlinks := match lookup o "disable_hardlinks" with Some s => String.eqb s "true" | None => false end |}
    end.
  (* object_store's GoogleConfigKey; names that nothing here depends on (those of the client) are [OtherGcs] *)
  Inductive gcs_key := ServiceAccount | ServiceAccountKey | GcsBucket | ApplicationCredentials | OtherGcs (name : string).
  Definition gcs_key_eqb (a b : gcs_key) : bool :=
    match a, b with
    | ServiceAccount, ServiceAccount | ServiceAccountKey, ServiceAccountKey | GcsBucket, GcsBucket | ApplicationCredentials, ApplicationCredentials => true
    | OtherGcs x, OtherGcs y => String.eqb x y
    | _, _ => false
    end.
  Variable client_key : string -> bool.
  Definition gcs_key_of (s : string) : option gcs_key :=
    if among s ["google_service_account"; "service_account"; "google_service_account_path"; "service_account_path"] then Some ServiceAccount
    else if among s ["google_service_account_key"; "service_account_key"] then Some ServiceAccountKey
    else if among s ["google_bucket"; "google_bucket_name"; "bucket"; "bucket_name"] then Some GcsBucket
    else if among s ["google_application_credentials"; "application_credentials"] then Some ApplicationCredentials
    else if client_key s then Some (OtherGcs s) else None.
  Notation gcs_options := (list (gcs_key * string)) (only parsing).
  Fixpoint gcs_lookup (o : gcs_options) (k : gcs_key) : option string :=
    match o with [] => None | (k', v) :: r => if gcs_key_eqb k' k then Some v else gcs_lookup r k end.
  Definition gcs_or_insert (k : gcs_key) (v : string) (o : gcs_options) : gcs_options := match gcs_lookup o k with Some _ => o | None => (k, v) :: o end.
  (* google.rs 88-105 map_options_into_google_config_keys: unknown keys are refused *)
  Definition gcs_map_options (o : options) : option gcs_options :=
    fold_left (fun acc kv => match acc, gcs_key_of (fst kv) with Some m, Some k => Some ((k, snd kv) :: m) | _, _ => None end) o (Some []).
  (* google.rs 107-142 add_google_cloud_storage_environment_variables *)
  Definition gcs_add_variable (m : gcs_options) (var : string * string) : gcs_options :=
    if String.prefix "GOOGLE_" (fst var)
    then match gcs_key_of (lower (fst var)) with
         | Some ServiceAccount | Some ServiceAccountKey | None => m
         | Some k => gcs_or_insert k (snd var) m
         end
    else m.
  Definition gcs_add_environment (env : options) (m : gcs_options) : gcs_options :=
    let m := match gcs_lookup m ServiceAccount, gcs_lookup m ServiceAccountKey with
             | None, None => match lookup env "GOOGLE_SERVICE_ACCOUNT", lookup env "GOOGLE_SERVICE_ACCOUNT_KEY" with
                             | Some v, _ => (ServiceAccount, v) :: m
                             | None, Some v => (ServiceAccountKey, v) :: m
                             | None, None => m
                             end
             | _, _ => m
             end in
    fold_left gcs_add_variable env m.
  (* GoogleCloudStorageBuilder::build: an account given as path and as key is refused; an account wins over application credentials *)
  Inductive gcs_auth := AccountPath (p : string) | AccountKey (k : string) | Application (p : string) | GcsAmbient.
  Definition gcs_auth_of (get : gcs_key -> option string) : option gcs_auth :=
    match get ServiceAccount, get ServiceAccountKey with
    | Some _, Some _ => None
    | Some p, None => Some (AccountPath p)
    | None, Some k => Some (AccountKey k)
    | None, None => match get ApplicationCredentials with Some p => Some (Application p) | None => Some GcsAmbient end
    end.
  (* lib.rs 136-189 build_object_store_from_opts, GCS: the bucket is the host of the URL *)
  Definition gcs_build_from_options (env : options) (bucket : string) (o : options) : result (string * gcs_auth) :=
    match gcs_map_options o with
    | None => Failed
    | Some m => match gcs_auth_of (gcs_lookup (gcs_add_environment env m)) with Some a => Built (bucket, a) | None => Failed end
    end.
  (* google.rs 65-79 build_google_cloud_storage *)
  Definition build_google (c : gcs_config) : string * gcs_auth :=
    (g_bucket c, match g_credentials c with Some p => AccountPath p | None => GcsAmbient end).

  (* ---- External tables on S3 buckets, physical.rs 775-853 ---- *)
  (* The stores that DataFusion knows are found by the bucket, when a table is read; [internal]: the configured store, if it is on S3.
     A table is created with the key/value pairs of OPTIONS. *)
  Record session := { stores : list (string * s3_config); tables : list (string * string) }.
  Fixpoint assoc {A} (l : list (string * A)) (k : string) : option A := match l with [] => None | (k', v) :: r => if String.eqb k' k then Some v else assoc r k end.
  Definition table_config (internal : option s3_config) (b : string) (o : options) : option s3_config :=
    match o with
    | [] => match internal with
            | Some c => Some {| region := region c; access_key_id := access_key_id c; secret_access_key := secret_access_key c; session_token := session_token c;
                                endpoint := endpoint c; bucket := b; prefix := prefix c; allow_http := allow_http c; skip_signature := skip_signature c |}
            | None => None
            end
    | _ => Some (from_bucket_and_options b o)
    end.
  Definition create_external (internal : option s3_config) (s : session) (table b : string) (o : options) : result session :=
    match table_config internal b o with
    | None => Failed
    | Some c => match build_amazon_s3 c with
                | Built _ => Built {| stores := (b, c) :: stores s; tables := (table, b) :: tables s |}
                | Failed => Failed
                | Panicked => Panicked
                end
    end.
  (* The configuration with which a table is read *)
  Definition read_with (s : session) (table : string) : option s3_config := match assoc (tables s) table with Some b => assoc (stores s) b | None => None end.

  (* ---- Properties for Iceberg ---- *)
  (* aws.rs 266-296 s3_opts_to_file_io_props *)
  Definition or_insert (k v : string) (o : options) : options := match lookup o k with Some _ => o | None => put k v o end.
  Definition file_io_prop (key : s3_key) (val : string) (props : options) : options :=
    let props := or_insert "s3.region" "dummy-region" (put "s3.disable-config-load" "true" props) in
    match key with
    | AccessKeyId => put "s3.access-key-id" val props
    | SecretAccessKey => put "s3.secret-access-key" val props
    | SkipSignature =>
        if among (lower val) ["true"; "t"; "1"] then put "s3.disable-ec2-metadata" val (put "s3.allow-anonymous" val props) else put (as_ref key) val props
    | Region => put "s3.region" val props
    | Endpoint => put "s3.endpoint" val props
    | _ => put (as_ref key) val props
    end.
  (* lib.rs 207-223 object_store_opts_to_file_io_props *)
  Definition file_io_props (o : options) : options :=
    fold_left (fun props kv => match s3_key_of (fst kv) with Some k => file_io_prop k (snd kv) props | None => put (fst kv) (snd kv) props end) o [].
End Keys.
Arguments Built {A} a. Arguments Failed {A}. Arguments Panicked {A}.
