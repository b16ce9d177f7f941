(* The vectors of the project's own test of time travel (/repo/src/version.rs:118-160), replayed through TravelModel.v: the
   table references of each query, and how they are printed after the rewriting.
   These are tests of the model, not proofs. *)
From Coq Require Import Ascii String List Bool.
From Verif Require Import DdlModel TravelModel.
Import ListNotations.
Local Open Scope string_scope.
Local Open Scope list_scope.

Definition t_other (_ : string) : list string := [].
Definition t_word (s : string) : string * bool := (s, false).
Definition t_ref (n : list string) (v : option string) (a : option string) : factor :=
  {| fname := map t_word n; fargs := option_map (fun x => [Literal x]) v; falias := option_map t_word a |}.
Definition t_v : option string := Some "test_version".
(* Display of a table reference: name, arguments, alias *)
Definition t_print (f : factor) : string :=
  (print_name (fname f)
   ++ match fargs f with Some [Literal x] => "('" ++ x ++ "')" | Some _ => "(..)" | None => "" end
   ++ match falias f with Some i => " AS " ++ print_ident i | None => "" end)%string.
Definition t_rewrite (q : list factor) : list string :=
  map (fun f => t_print (fst (visit t_other "test_catalog" "test_schema" f))) q.

Example t_bare : t_rewrite [t_ref ["test_table"] t_v None] = ["test_table:test_version"].
Proof. vm_compute. reflexivity. Qed.
Example t_schema : t_rewrite [t_ref ["some_schema"; "test_table"] t_v None] = ["some_schema.test_table:test_version"].
Proof. vm_compute. reflexivity. Qed.
Example t_full :
  t_rewrite [t_ref ["some_db"; "some_schema"; "test_table"] t_v None] = ["some_db.some_schema.test_table:test_version"].
Proof. vm_compute. reflexivity. Qed.
Example t_cte_without :
  t_rewrite [t_ref ["some_schema"; "test_table"] t_v (Some "t"); t_ref ["some_cte"] None (Some "c")]
  = ["some_schema.test_table:test_version AS t"; "some_cte AS c"].
Proof. vm_compute. reflexivity. Qed.
Example t_cte_with :
  t_rewrite [t_ref ["other_table"] t_v (Some "k"); t_ref ["some_schema"; "test_table"] t_v (Some "t"); t_ref ["some_cte"] None (Some "c")]
  = ["other_table:test_version AS k"; "some_schema.test_table:test_version AS t"; "some_cte AS c"].
Proof. vm_compute. reflexivity. Qed.
