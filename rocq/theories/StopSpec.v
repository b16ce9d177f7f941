(* What a user expects of a server that is asked to stop. *)
From Coq Require Import List Arith Bool.
From Verif Require Import StopModel.
Import ListNotations.

(* some frontend is configured *)
Definition serves (c : config) : Prop := http c = true \/ flight c = true \/ postgres c = true.
(* the program is over *)
Definition over (st : state) : Prop := exists r, now st = Exited r.
(* it has been asked to stop, or is over *)
Definition asked (st : state) : Prop := now st <> Running.
(* the requests that the server has taken *)
Definition taken (st : state) : list (frontend * nat) := answered st ++ busy st ++ cut st.
(* the time that passes in a history *)
Fixpoint ticks (es : list event) : nat := match es with [] => 0 | Tick :: r => S (ticks r) | _ :: r => ticks r end.
(* no frontend panics *)
Definition healthy (es : list event) : Prop := forall f, ~ In (Fail f) es.
(* the background task does not get to flush *)
Definition no_flush (es : list event) : Prop := ~ In Flush es.
