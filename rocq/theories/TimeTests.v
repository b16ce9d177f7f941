(* The vectors of the project's own test of version timestamps (/repo/src/version.rs:163-180, test_version_timestamp_parsing), replayed through
   TimeModel.v. These are tests of the model, not proofs. *)
From Coq Require Import Ascii String List ZArith.
From Verif Require Import TimeModel.
Import ListNotations.
Local Open Scope string_scope.
Example timestamp_parsing :
  map version_to_datetime
    [ "2017-07-14T02:40:00+00:00"; "2017-07-14T04:40:00+02:00"; "2017-07-14 02:40:00 +00:00"; "2017-07-14 04:40:00 +02:00"; "2017-07-14 02:40:00";
      "Fri, 14 Jul 2017 02:40:00 +0000"; "Fri, 14 Jul 2017 04:40:00 +0200" ] = repeat (Some (1500000000 * 1000000000)%Z) 7.
Proof. vm_compute. reflexivity. Qed.
