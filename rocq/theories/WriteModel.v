(* Writing tables: how a query's results are cut into data files (src/context/delta.rs), how a file is uploaded in parts,
   and what INSERT, UPDATE, DELETE and TRUNCATE do to a table (src/context/physical.rs).
   Rows and bytes are of any type. Parquet encoding is left out: a file is the list of its rows. *)
From Coq Require Import List Arith Bool.
Import ListNotations.

Inductive outcome (A : Type) := Spin | Fail | Ok (a : A).     (* Spin: still running when the fuel is used up *)
Arguments Spin {A}. Arguments Fail {A}. Arguments Ok {A} a.

Section Files.
Context {R : Type}.

(* delta.rs:119-146: the loop that distributes one batch. [closed] are the files already closed, [cur] the rows of the open
   one, [sz] the variable current_partition_size, [leftover] the variable leftover_partition_capacity. *)
Fixpoint spread (fuel max : nat) (closed : list (list R)) (cur : list R) (sz leftover : nat) (batch : list R)
  : outcome (list (list R) * list R * nat) :=
  match fuel with
  | 0 => Spin
  | S fuel =>
      if Nat.ltb leftover (length batch) then
        let cur' := if Nat.ltb 0 leftover then cur ++ firstn leftover batch else cur in
        let batch' := if Nat.ltb 0 leftover then skipn leftover batch else batch in
        spread fuel max (closed ++ [cur']) [] 0 max batch'
      else Ok (closed, cur ++ batch, sz + length batch)
  end.
(* delta.rs:109-150: all batches of all partitions of the plan; None is an error in the stream *)
Fixpoint spread_all (fuel max : nat) (closed : list (list R)) (cur : list R) (sz : nat) (stream : list (option (list R)))
  : outcome (list (list R)) :=
  match stream with
  | [] => Ok (closed ++ [cur])
  | None :: _ => Fail
  | Some b :: stream' =>
      match spread fuel max closed cur sz (max - sz) b with
      | Ok (closed', cur', sz') => spread_all fuel max closed' cur' sz' stream'
      | Spin => Spin
      | Fail => Fail
      end
  end.
Definition plan_files (fuel max : nat) (parts : list (list (option (list R)))) : outcome (list (list R)) :=
  spread_all fuel max [] [] 0 (concat parts).

(* delta.rs:152-267: every file is uploaded by a task of its own; the results are collected in the order of the files, and one
   failure fails the whole. [up i] is whether the upload of the i-th file succeeds; the name of a file is made of the
   statement's uuid and the number of the file. *)
Record file := { path : nat * nat; rows : list R }.
Fixpoint collect_adds (up : nat -> bool) (uuid i : nat) (fs : list (list R)) : outcome (list file) :=
  match fs with
  | [] => Ok []
  | f :: fs' =>
      match collect_adds up uuid (S i) fs' with
      | Ok l => if up i then Ok ({| path := (uuid, i); rows := f |} :: l) else Fail
      | Spin => Spin
      | Fail => Fail
      end
  end.
Definition plan_to_delta_adds (fuel max : nat) (up : nat -> bool) (uuid : nat) (parts : list (list (option (list R))))
  : outcome (list file) :=
  match plan_files fuel max parts with
  | Ok fs => collect_adds up uuid 0 fs
  | Spin => Spin
  | Fail => Fail
  end.
End Files.
Arguments file R : clear implicits.

(* delta.rs:196-243: the upload of one file, as the sequence of calls of the store's multipart interface.
   A schedule gives for every turn of the loop the result of the read (an error, or at most n + 1 bytes) and whether a
   put_part in this turn succeeds. *)
Section Upload.
Context {B : Type}.
Inductive call := PutPart (d : list B) | Complete | Abort.
Inductive read := ReadErr | ReadUpTo (n : nat).
Fixpoint upload (min : nat) (sched : list (read * bool)) (rest buf : list B) : list call :=
  match sched with
  | [] => []                                                   (* still running *)
  | (ReadErr, _) :: _ => [Abort]                               (* lines 227-232, 236-243 *)
  | (ReadUpTo n, ok) :: sched' =>
      let got := firstn (S n) rest in
      let rest' := skipn (S n) rest in
      let buf' := buf ++ got in
      if Nat.eqb (length got) 0 && Nat.eqb (length buf') 0 then [Complete]               (* lines 199-203, 246 *)
      else if negb (Nat.eqb (length got) 0) && Nat.ltb (length buf') min then upload min sched' rest' buf'
      else PutPart buf' :: (if ok then upload min sched' rest' [] else [Abort])
  end.
End Upload.
Arguments call B : clear implicits.

(* The statements. A predicate has three values, None is unknown (NULL). [keep] is what PruningPredicate::prune says of each
   file; [scan] the batches that a scan of the table with the statement's predicate as filter yields, by partition. *)
Section Dml.
Context {R : Type}.
Notation pred := (R -> option bool) (only parsing).
Definition not3 (x : option bool) : option bool := match x with Some b => Some (negb b) | None => None end.
Definition is_true3 (x : option bool) : bool := match x with Some true => true | _ => false end.

Definition eqp (a b : nat * nat) : bool := Nat.eqb (fst a) (fst b) && Nat.eqb (snd a) (snd b).
(* Delta: the files of a table after a commit of add and remove actions *)
Definition commit (t : list (file R)) (adds removes : list (file R)) : list (file R) :=
  filter (fun f => negb (existsb (fun g => eqp (path f) (path g)) removes)) t ++ adds.

(* physical.rs:401-410, 273-283: files_to_prune *)
Definition selected (t : list (file R)) (keep : list bool) : list (file R) := map fst (filter snd (combine t keep)).

(* physical.rs:193-215 with delta.rs:383-427: INSERT *)
Definition insert (fuel max : nat) (up : nat -> bool) (uuid : nat) (t : list (file R)) (q : list (list (option (list R))))
  : outcome (list (file R)) :=
  match plan_to_delta_adds fuel max up uuid q with
  | Ok adds => Ok (commit t adds [])
  | Spin => Spin | Fail => Fail
  end.

(* physical.rs:370-485: DELETE *)
Definition delete (fuel max : nat) (up : nat -> bool) (uuid : nat) (t : list (file R)) (where_ : option pred) (keep : list bool)
  (scan : list (list (option (list R)))) : outcome (list (file R)) :=
  match where_ with
  | None => Ok (commit t [] t)
  | Some p =>
      let removes := selected t keep in
      match removes with
      | [] => Ok (commit t [] [])
      | _ =>
          match plan_to_delta_adds fuel max up uuid (map (map (option_map (filter (fun r => is_true3 (not3 (p r)))))) scan) with
          | Ok adds => Ok (commit t adds removes)
          | Spin => Spin | Fail => Fail
          end
      end
  end.
(* physical.rs:666-702: TRUNCATE *)
Definition truncate (t : list (file R)) : list (file R) := commit t [] t.
End Dml.

(* UPDATE works on columns. [es]: the projection expressions, one for each column of the table; an expression (with its cast)
   may fail on a row. *)
Section Update.
Context {V : Type}.
Notation row := (list V) (only parsing).
(* provider.rs:142-179 project_expressions: CASE WHEN selection THEN assignment ELSE the column *)
Fixpoint project (sel : option (row -> option bool)) (r : row) (es : list (row -> option V)) (fields : row) : option row :=
  match es, fields with
  | e :: es', v :: fields' =>
      match (match sel with
             | Some p => if is_true3 (p r) then e r else Some v
             | None => e r
             end), project sel r es' fields' with
      | Some v', Some r' => Some (v' :: r')
      | _, _ => None
      end
  | _, _ => Some []
  end.
Fixpoint map_err {A B} (f : A -> option B) (l : list A) : option (list B) :=
  match l with
  | [] => Some []
  | a :: l' => match f a, map_err f l' with Some b, Some r => Some (b :: r) | _, _ => None end
  end.
(* physical.rs:216-369: UPDATE *)
Definition update (fuel max : nat) (up : nat -> bool) (uuid : nat) (t : list (file row)) (where_ : option (row -> option bool))
  (es : list (row -> option V)) (keep : list bool) (scan : list (list (option (list row)))) : outcome (list (file row)) :=
  let removes := match where_ with Some _ => selected t keep | None => t end in
  match removes with
  | [] => Ok (commit t [] [])
  | _ =>
      let batch b := match b with Some rs => map_err (fun r => project where_ r es r) rs | None => None end in
      match plan_to_delta_adds fuel max up uuid (map (map batch) scan) with
      | Ok adds => Ok (commit t adds removes)
      | Spin => Spin | Fail => Fail
      end
  end.
End Update.

(* Versions. physical.rs:360-367, 476-483, delta.rs:410-424: a statement commits a version to the table's log and then, in a
   second step, enters it into the catalog (default.rs:299-339); TRUNCATE (physical.rs:697-699) does only
   the first. [crash]: the server stops between the two steps. *)
Inductive stmt := SInsert | SUpdate | SDelete | STruncate.
Record versions := { in_log : list nat; in_catalog : list nat }.
(* default.rs:228-281: CREATE TABLE records version 0 *)
Definition created : versions := {| in_log := [0]; in_catalog := [0] |}.
Definition records (s : stmt) : bool := match s with STruncate => false | _ => true end.
Definition exec (v : versions) (s : stmt * bool) : versions :=
  let n := length (in_log v) in
  {| in_log := in_log v ++ [n];
     in_catalog := if records (fst s) && negb (snd s) then in_catalog v ++ [n] else in_catalog v |}.
Definition exec_all (ss : list (stmt * bool)) : versions := fold_left exec ss created.
