(* What commits must achieve. *)
From Coq Require Import List Arith Bool.
From Verif Require Import LakeModel.
Import ListNotations.

(* a call that is to create an object, and the object it creates *)
Definition dest {D} (c : @create_call D) : nat := match c with PutNew p _ => p | CopyNew _ to => to | RenameNew _ to => to end.
Definition source {D} (s : nat -> option D) (c : create_call) : option D :=
  match c with PutNew _ d => Some d | CopyNew from _ => s from | RenameNew from _ => s from end.
(* it succeeds only if there is none yet, and otherwise changes nothing *)
Definition creates_only {D} (call : (nat -> option D) -> create_call -> (nat -> option D) * bool) (c : create_call) : Prop :=
  forall s, match call s c with
            | (s', true) => s (dest c) = None /\ s' (dest c) = source s c
            | (s', false) => forall p, s' p = s p
            end.
Definition is_put {D} (c : @create_call D) : Prop := match c with PutNew _ _ => True | _ => False end.

(* a table directory before the inserts considered: empty, or the versions 0 .. h with the hint at h; [contents] lists only the
   inserts considered, so it is empty at first *)
Definition well_formed (st : istate) : Prop :=
  (forall w, inserts st w = Idle) /\
  (forall v m, metas st v = Some m -> contents m = []) /\
  match hint st with
  | None => forall v, metas st v = None
  | Some h => forall v, metas st v <> None <-> v <= h
  end /\
  (forall v m m', metas st v = Some m -> metas st (S v) = Some m' -> schema m' = schema m).
(* a value of a column: its type and whether it is NULL *)
Definition row_fits (s : list field) (r : list (option nat)) : Prop :=
  Forall2 (fun f v => match v with None => required f = false | Some t => t = ftype f end) s r.
(* every insert that stops does so before its version is written, or after the hint is set *)
Fixpoint stops_harmless (sch : nat -> list field) (st : istate) (es : list iev) : Prop :=
  match es with
  | [] => True
  | e :: es' => (match e with IStop w => forall v, inserts st w <> MetaWritten v | _ => True end) /\ stops_harmless sch (istep sch st e) es'
  end.
