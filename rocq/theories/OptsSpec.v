(* What users rely on about the options of object stores. Independent of how Seafowl handles them; only the names of the options
   (OptsModel.s3_key_of, gcs_key_of: object_store's own) and the shape of a store (OptsModel.s3_store) are taken from there. *)
From Coq Require Import Ascii String List Bool Permutation.
From Verif Require Import OptsModel.
Import ListNotations.
Open Scope string_scope.

Section Spec.
  Variable other_key : string -> option string.
  (* The value that is given to a setting, under any of its names *)
  Fixpoint given (o : options) (k : s3_key) : option string :=
    match o with
    | [] => None
    | (name, v) :: r => match s3_key_of other_key name with Some k' => if s3_key_eqb k' k then Some v else given r k | None => given r k end
    end.
  (* Every setting is given at most once: no two names of the same setting *)
  Definition no_aliases (o : options) : Prop :=
    forall before name v after, o = (before ++ (name, v) :: after)%list ->
      forall k, s3_key_of other_key name = Some k -> given before k = None /\ given after k = None.
  (* All the names are known *)
  Definition all_known (o : options) : Prop := Forall (fun kv => s3_key_of other_key (fst kv) <> None) o.
  (* The environment variables that can matter to S3: AWS_... *)
  Definition aws_variables (env : options) : options :=
    map (fun v => (lower (fst v), snd v)) (filter (fun v => String.prefix "AWS_" (fst v)) env).

  (* A sequence of CREATE EXTERNAL TABLE statements: name, bucket, OPTIONS. A statement that fails changes nothing. *)
  Definition statement := (string * string * options)%type.
  Definition execute (internal : option s3_config) (s : session) (st : statement) : session :=
    let '(t, b, o) := st in match create_external internal s t b o with Built s' => s' | _ => s end.
  Definition run (internal : option s3_config) (l : list statement) : session := fold_left (execute internal) l {| stores := []; tables := [] |}.
End Spec.
