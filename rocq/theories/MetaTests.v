(* The integration tests of queries with an inline metastore (/repo/tests/flight/inline_metastore.rs:8-58) and of the remote one
   (/repo/tests/clade/query.rs), replayed through MetaModel.v with the listing of /repo/tests/fixtures.rs:27-165. These are tests of the model, not
   proofs. Tables are opened at store and path; every store of the listing opens; loading a Delta table succeeds where the tests put one. *)
From Coq Require Import Ascii String List Bool.
From Verif Require Import MetaModel.
Import ListNotations.
Local Open Scope string_scope.
Definition table (n p : string) (st : option string) (f : format) : table_object := {| t_name := n; t_path := p; t_store := st; t_format := f |}.
Definition a_store (n u : string) : storage_location := {| l_name := n; l_url := u; l_options := [] |}.
Definition fixture (include_file_without_store : bool) : listing :=
  {| schemas :=
       [{| s_name := "local"; s_tables := (table "file_with_store" "delta" (Some "local_fs") Delta ::
              if include_file_without_store then [table "file" "delta" None Delta] else [])%list |};
        {| s_name := "s3"; s_tables := [table "delta" "test-data/delta" (Some "minio") Delta; table "delta_public" "delta" (Some "minio-public") Delta;
              table "iceberg" "test-data/iceberg/1" (Some "minio") Iceberg; table "iceberg_public" "iceberg/1" (Some "minio-public") Iceberg] |};
        {| s_name := "gcs"; s_tables := [table "fake" "delta" (Some "fake-gcs") Delta] |}];
     stores := [a_store "minio" "s3://seafowl-test-bucket"; a_store "minio-public" "s3://seafowl-test-bucket-public"; a_store "fake-gcs" "gs://test-data";
                a_store "local_fs" "file://tests/data"] |}.
(* the servers of the tests: an empty store in memory, no store, and a directory with the table *)
Inductive server_type := Memory | InlineOnly | LocalWithData.
Definition handle : Type := (string * string)%type.
Definition inline_query (s : server_type) (file : bool) (schema name : string) : bool :=
  match query handle (fun u _ p => Some (u, p)) (fun p => match s with InlineOnly => None | _ => Some ("default", p) end) (fun u _ p => Some (u, p))
          (fun h => if String.eqb (fst h) "default" then match s with LocalWithData => true | _ => false end else true)
          (fixture file) [] [(schema, name)] with
  | Tables _ => true
  | Failed => false
  end.
Example vectors :
  inline_query Memory true "local" "file" = false /\ inline_query InlineOnly true "local" "file" = false /\ inline_query LocalWithData true "local" "file" = true /\
  inline_query InlineOnly true "local" "file_with_store" = false /\ inline_query InlineOnly false "local" "file_with_store" = true /\
  forallb (fun n => inline_query InlineOnly false "s3" n) ["delta"; "delta_public"; "iceberg"; "iceberg_public"] = true /\
  inline_query InlineOnly false "gcs" "fake" = true.
Proof. vm_compute. repeat split. Qed.
(* tests/clade/query.rs: all tables are listed; [object_store]: the server has a directory with the table, or none *)
Example clade_vectors :
  inline_query InlineOnly true "local" "file" = false /\ inline_query LocalWithData true "local" "file" = true /\
  inline_query LocalWithData true "s3" "delta" = true /\ inline_query LocalWithData true "gcs" "fake" = true.
Proof. vm_compute. repeat split. Qed.
