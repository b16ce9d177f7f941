(* What the property C126 talks about. Changes, their application and the table that stored rows represent: SyncDataSpec.v. *)
From Coq Require Import List Arith ZArith Bool.
From Verif Require Import SyncDataModel SyncDataSpec PipeModel.
Import ListNotations.

(* the messages of a history, and the changes that they describe, in order *)
Definition messages (es : list event) : list (list column * list rbatch) := flat_map (fun e => match e with Message sch bs => [(sch, bs)] | _ => [] end) es.
(* the writer puts every row into one file *)
Definition cuts (es : list event) : Prop := forall cut rows, In (Flush cut) es -> concat (cut rows) = rows.
(* statistics and pruning are right for all files *)
Definition engine_ok (tcols : list nat) (stats : list (list (list value)) -> fstats) (prune : list (list (list value)) -> list (list (nat * (value * value))) -> list bool) : Prop :=
  forall fs, stats_ok tcols fs (stats fs) /\ pp_ok tcols fs (prune fs).
(* of two messages, none has the columns of the other and then further ones (C18) *)
Definition same_widths (ms : list (list column * list rbatch)) : Prop :=
  forall a b more, In a ms -> In b ms -> fst a = fst b ++ more -> more = [].
(* no message arrives while squashed changes are waiting *)
Definition undisturbed (run : list event -> state) (es : list event) : Prop :=
  forall es1 sch bs es2, es = es1 ++ Message sch bs :: es2 -> forall p, In p (queue (run es1)) -> p_squashed p = false.
(* The files show the table that [f0] held at the beginning after the first [n] messages of the history *)
Definition shows (tcols pks vals : list nat) (f0 : list (list (list value))) (es : list event) (fs : list (list (list value))) (n : nat) : Prop :=
  n <= length (messages es) /\ holds tcols pks vals (concat fs) (apply_all (all_changes pks vals (firstn n (messages es))) (table_of tcols pks vals (concat f0))).
(* The history is one of a table [f0] whose owner sends well-formed messages with all columns, each change fitting the table it finds *)
Definition proper (tcols pks vals : list nat) (f0 : list (list (list value))) (es : list event) : Prop :=
  good_columns tcols pks vals /\ good_table tcols pks (concat f0) /\ cuts es /\
  (forall m, In m (messages es) -> good_item pks m /\ full_rows vals m) /\ same_widths (messages es) /\
  valid_stream (table_of tcols pks vals (concat f0)) (all_changes pks vals (messages es)).
Definition start (f0 : list (list (list value))) : state := {| files := f0; queue := [] |}.
(* What the theorems below demand of the schedule: no update moves a row to another key; or no message arrives while squashed changes are waiting, and keys
   are told apart by their first column (always so with one key column) *)
Definition calm (pks vals : list nat) (go : list event -> state) (es : list event) : Prop :=
  (forall c, In c (all_changes pks vals (messages es)) -> keeps_key c) \/ (undisturbed go es /\ keys_told (all_changes pks vals (messages es))).
