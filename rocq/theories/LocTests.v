(* The vectors of the project's own test of table locations (/repo/src/object_store/wrapped.rs:303-354), replayed through
   LocModel.v. These are tests of the model, not proofs. *)
From Coq Require Import Ascii String List Bool.
From Verif Require Import LocModel.
Import ListNotations.

Definition t_uuid : list ascii := s_ "6bb9913e-0341-446d-bb58-b865803ce0ff".
Definition t_other (_ : url) (_ : list ascii) : option url := None.
(* wrapped.rs:25-70: the root of a bucket *)
Definition t_root (endpoint : option string) : url :=
  match endpoint with
  | Some e => {| special := true; opaque := false; authority := s_ e; upath := s_ "/test-bucket/" |}
  | None => {| special := false; opaque := false; authority := s_ "s3://test-bucket"; upath := s_ "/" |}
  end.
Definition t_case (endpoint p : option string) (expected_prefix expected_uri : string) : Prop :=
  let c := {| root_uri := t_root endpoint; prefix := option_map s_ p |} in
  joined (table_prefix c t_uuid) = s_ expected_prefix /\
  option_map url_text (join t_other (root_uri c) (joined (table_prefix c t_uuid))) = Some (s_ expected_uri).

Example t_bucket_root :
  t_case None None "6bb9913e-0341-446d-bb58-b865803ce0ff" "s3://test-bucket/6bb9913e-0341-446d-bb58-b865803ce0ff".
Proof. vm_compute. split; reflexivity. Qed.
Example t_bucket_root_endpoint :
  t_case (Some "http://127.0.0.1:9000"%string) None "6bb9913e-0341-446d-bb58-b865803ce0ff"
         "http://127.0.0.1:9000/test-bucket/6bb9913e-0341-446d-bb58-b865803ce0ff".
Proof. vm_compute. split; reflexivity. Qed.
Example t_path_no_delimiter :
  t_case None (Some "some/path/no/delimiter"%string) "some/path/no/delimiter/6bb9913e-0341-446d-bb58-b865803ce0ff"
         "s3://test-bucket/some/path/no/delimiter/6bb9913e-0341-446d-bb58-b865803ce0ff".
Proof. vm_compute. split; reflexivity. Qed.
Example t_path_no_delimiter_endpoint :
  t_case (Some "http://127.0.0.1:9000"%string) (Some "some/path/no/delimiter"%string)
         "some/path/no/delimiter/6bb9913e-0341-446d-bb58-b865803ce0ff"
         "http://127.0.0.1:9000/test-bucket/some/path/no/delimiter/6bb9913e-0341-446d-bb58-b865803ce0ff".
Proof. vm_compute. split; reflexivity. Qed.
Example t_path_with_delimiter :
  t_case None (Some "some/path/with/delimiter/"%string) "some/path/with/delimiter/6bb9913e-0341-446d-bb58-b865803ce0ff"
         "s3://test-bucket/some/path/with/delimiter/6bb9913e-0341-446d-bb58-b865803ce0ff".
Proof. vm_compute. split; reflexivity. Qed.
Example t_path_with_delimiter_endpoint :
  t_case (Some "http://127.0.0.1:9000"%string) (Some "some/path/with/delimiter/"%string)
         "some/path/with/delimiter/6bb9913e-0341-446d-bb58-b865803ce0ff"
         "http://127.0.0.1:9000/test-bucket/some/path/with/delimiter/6bb9913e-0341-446d-bb58-b865803ce0ff".
Proof. vm_compute. split; reflexivity. Qed.
