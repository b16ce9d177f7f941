(* What the properties of locations (C102, C103) talk about. *)
From Coq Require Import Ascii String List Bool Arith.
From Verif Require Import LocModel.
Import ListNotations.
Open Scope char_scope.

(* Names with slashes between them, and the names between the slashes of a text *)
Fixpoint slashed (l : list (list ascii)) : text := match l with [] => [] | [n] => n | n :: r => n ++ "/" :: slashed r end.
Fixpoint cut (t : text) : list (list ascii) :=
  match t with [] => [[]] | c :: r => if ascii_dec c "/" then [] :: cut r else match cut r with n :: l => (c :: n) :: l | [] => [[c]] end end.
(* The English of a path: names between slashes. A normal path is made of names that are not empty and not . or .., of letters, digits, - _ and dots. *)
Definition ordinary : text := s_ "abcdefghijklmnopqrstuvwxyzABCDEFGHIJKLMNOPQRSTUVWXYZ0123456789-_.".
Definition normal_name (n : text) : Prop := n <> [] /\ n <> s_ "." /\ n <> s_ ".." /\ incl n ordinary.
Definition normal_path (t : text) (names : list text) : Prop := names <> [] /\ Forall normal_name names /\ t = slashed names.

(* A place is inside of the place [p] with the parts [ps]: none of its further parts means "this directory", "the directory above" or more than one part *)
Definition proper_part (t : text) : Prop := t <> [] /\ t <> s_ "." /\ t <> s_ ".." /\ ~ In "/" t.

(* The URL of a directory in a bucket, written with the escapes that URLs need: all but these characters become % and two hexadecimal digits *)
Definition url_safe : text := s_ "abcdefghijklmnopqrstuvwxyzABCDEFGHIJKLMNOPQRSTUVWXYZ0123456789-._~!$&'()*+,;=:@[]^|\".
Definition percent (c : ascii) : text := ["%"; nth (nat_of_ascii c / 16) (s_ "0123456789ABCDEF") "0"; nth (nat_of_ascii c mod 16) (s_ "0123456789ABCDEF") "0"].
Definition url_name (n : text) : text := flat_map (fun c => if in_dec ascii_dec c url_safe then [c] else percent c) n.
Definition bucket_url (bucket directory : text) : url :=
  {| special := false; opaque := false; authority := bucket; upath := "/" :: slashed (map url_name (cut directory)) |}.

(* Reading a path with .. as file systems do *)
Definition same (a b : text) : bool := if list_eq_dec ascii_dec a b then true else false.
Fixpoint resolved (acc : list text) (names : list text) : list text :=
  match names with
  | [] => acc
  | n :: r => if same n (s_ "..") then resolved (removelast acc) r else if (same n (s_ ".") || same n [])%bool then resolved acc r else resolved (acc ++ [n]) r
  end.
Definition names_of (t : text) : list text := resolved [] (cut t).

Definition place_eq (a b : place) : {a = b} + {a <> b}.
Proof. repeat decide equality. Defined.

Section Sync.
  Context (other : url -> list ascii -> option url) (config : option configured) {change : Type}.
  (* The changes that commands sent to a place, in order *)
  Definition sent_to (d : place) (l : list (event change)) : list change :=
    flat_map (fun e => match e with
                       | Put c ch => match destination other config c with Dest _ p => if place_eq p d then [ch] else [] | _ => [] end
                       | Flush _ => [] end) l.
  (* The changes that were written at a place, and that wait for it *)
  Definition written_at (d : place) (s : state change) : list change :=
    flat_map (fun x => if place_eq (fst x) d then [snd x] else []) (lake s).
  Definition waiting_for (d : place) (s : state change) : list change :=
    flat_map (fun e => if place_eq (goes_to e) d then waiting e else []) (queue s).
  (* Two commands have the same URL exactly if they have the same place *)
  Definition told_apart (l : list (event change)) : Prop :=
    forall c ch c' ch' k p k' p', In (Put c ch) l -> In (Put c' ch') l -> destination other config c = Dest k p -> destination other config c' = Dest k' p' -> (k = k' <-> p = p').
End Sync.

(* All commands are for one store, and all paths are normal *)
Definition one_store {change : Type} (config : option configured) (st : option (url * list (string * string))) (l : list (event change)) : Prop :=
  match st with
  | Some (u, _) => opaque u = false /\ (upath u = [] \/ exists r, upath u = "/" :: r)
  | None => config <> None
  end /\
  forall c ch, In (Put c ch) l -> store c = st /\ exists names, normal_path (path c) names.

(* The place that a command names: with a location, the directory of the location in its bucket and the path in it; without, the prefix of the configured
   store and the path in it *)
Definition names_place (config : option configured) (c : command) (p : place) : Prop :=
  exists ts, normal_path (path c) ts /\
  match store c with
  | Some (u, o) => exists b, in_root p = Bucket b o /\ ((u = bucket_url b [] /\ parts p = ts) \/ exists d ds, normal_path d ds /\ u = bucket_url b d /\ parts p = ds ++ ts)
  | None => exists i, config = Some i /\ in_root p = Configured /\
      match prefix i with None => parts p = ts | Some d => exists ds, normal_path d ds /\ parts p = ds ++ ts end
  end.
(* The changes of the commands that name the place [d], in order *)
Inductive sent_in {change : Type} (config : option configured) (d : place) : list (event change) -> list change -> Prop :=
| si_nil : sent_in config d [] []
| si_flush k l chs : sent_in config d l chs -> sent_in config d (Flush k :: l) chs
| si_here c ch l chs : names_place config c d -> sent_in config d l chs -> sent_in config d (Put c ch :: l) (ch :: chs)
| si_elsewhere c ch p l chs : names_place config c p -> p <> d -> sent_in config d l chs -> sent_in config d (Put c ch :: l) chs.
