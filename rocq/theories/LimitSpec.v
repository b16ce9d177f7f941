(* What the properties of the limits mean (of LimitModel.v and PoolModel.v only the types are used). *)
From Coq Require Import Ascii String List NArith ZArith Bool.
From Verif Require Import PoolModel LimitModel.
From Verif Require HttpModel.
Import ListNotations.
Open Scope Z_scope.

(* ---- memory ---- *)
Definition mebibytes_of (m : N) : Z := Z.of_N m * 1048576.
(* [p] bytes are seven tenths of [b] bytes, up to one byte and never more *)
Definition seventy_percent (p b : Z) : Prop := 7 * b - 10 <= 10 * p <= 7 * b.
(* The bytes that operators have at a moment, and those taken without asking, after the calls of a list with their answers *)
Definition taken (a : call * bool) : Z := match what (fst a) with Shrink => - size (fst a) | _ => if snd a then size (fst a) else 0 end.
Definition reserved (l : list (call * bool)) : Z := fold_right (fun a s => taken a + s) 0 l.
Definition unasked (l : list (call * bool)) : Z := fold_right (fun a s => match what (fst a) with Grow => size (fst a) | _ => 0 end + s) 0 l.
(* sizes are not negative *)
Definition sizes (l : list event) : Prop := forall c, In (Begin c) l -> 0 <= size c.

(* ---- uploads ---- *)
Definition name (t : list ascii) : Prop := t <> [] /\ ~ In "/"%char t.
(* the two paths of uploads *)
Inductive upload_path : list ascii -> Prop :=
| Default s t : name s -> name t -> upload_path (list_ascii_of_string "/upload/" ++ s ++ "/"%char :: t)
| Named d s t : name d -> name s -> name t -> upload_path ("/"%char :: d ++ list_ascii_of_string "/upload/" ++ s ++ "/"%char :: t).
(* nobody needs a token, and none is sent *)
Definition open_access (p : HttpModel.policy) (a : option (list ascii)) : Prop := a = None /\ HttpModel.write p = HttpModel.Any.
(* or the password for writing is sent *)
Definition with_password (hash : list ascii -> list ascii) (p : HttpModel.policy) (a : option (list ascii)) : Prop :=
  exists w, a = Some (list_ascii_of_string "Bearer " ++ w) /\ HttpModel.write p = HttpModel.Password (hash w) /\ (forall r, w <> list_ascii_of_string "Bearer " ++ r).
Definition admitted hash p a : Prop := open_access p a \/ with_password hash p a.
