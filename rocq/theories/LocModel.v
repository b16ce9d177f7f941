(* Where tables are stored, and how the changes of a data sync find their table. Models get_log_store_for_table of src/object_store/factory.rs,
   get_log_store and table_prefix of src/object_store/wrapped.rs, the location of Iceberg tables in src/catalog/metastore.rs, the choice of a
   destination in src/frontend/flight/handler.rs and the queue by URL in src/sync/writer.rs. Texts are lists of bytes. Not modelled: Url::parse
   (a URL is given by its parts), URLs of the scheme file, tabs and line ends in paths, which the url crate leaves out. *)
From Coq Require Import Ascii String List Bool Arith.
Import ListNotations.
Open Scope list_scope.
Open Scope char_scope.

Notation text := (list ascii) (only parsing).
Definition s_ (s : string) : list ascii := list_ascii_of_string s.
Fixpoint teqb (a b : text) : bool :=
  match a, b with [], [] => true | x :: a, y :: b => (Ascii.eqb x y && teqb a b)%bool | _, _ => false end.
(* str::split *)
Fixpoint split (c : ascii) (t : text) : list (list ascii) :=
  match t with
  | [] => [[]]
  | x :: r => if Ascii.eqb x c then [] :: split c r else match split c r with s :: ss => (x :: s) :: ss | [] => [[x]] end
  end.
Fixpoint joined (l : list (list ascii)) : text := match l with [] => [] | [s] => s | s :: r => s ++ "/" :: joined r end.
Definition dot (t : text) : bool := teqb t (s_ ".").
Definition dots (t : text) : bool := teqb t (s_ "..").

(* ---- Names of objects: the crate object_store ---- *)
Definition hex (n : nat) : ascii := ascii_of_nat (if Nat.ltb n 10 then 48 + n else 55 + n).
Definition escape (c : ascii) : text := ["%"; hex (nat_of_ascii c / 16); hex (nat_of_ascii c mod 16)].
Definition among (s : string) (c : ascii) : bool := existsb (Ascii.eqb c) (s_ s).
Definition control (c : ascii) : bool := let n := nat_of_ascii c in (Nat.ltb n 32 || Nat.leb 127 n)%bool.        (* with the bytes that are not ASCII *)
(* the set INVALID of object_store's path/parts.rs *)
Definition invalid (c : ascii) : bool := (control c || among "/\{^}%`]"">[~<#|*?" c)%bool.
(* PathPart::from *)
Definition encode_part (t : text) : text :=
  if dot t then s_ "%2E" else if dots t then s_ "%2E%2E" else flat_map (fun c => if invalid c then escape c else [c]) t.
Definition nonempty (t : text) : bool := match t with [] => false | _ => true end.
(* Path::from: the parts of a path *)
Definition path_from (t : text) : list (list ascii) := filter nonempty (map encode_part (split "/" t)).

(* ---- URLs ---- *)
(* [authority]: scheme, host and port; [upath]: empty, or it begins with a slash; [special]: http, https, ftp; [opaque]: cannot be a base *)
Record url := { special : bool; opaque : bool; authority : list ascii; upath : list ascii }.
Definition url_text (u : url) : text := authority u ++ upath u.
(* the sets PATH_SEGMENT and SPECIAL_PATH_SEGMENT of the url crate *)
Definition url_escapes (sp : bool) (c : ascii) : bool := (control c || among " ""<>`#?{}/%" c || (sp && among "\" c))%bool.
Definition encode_segment (sp : bool) (t : text) : text := flat_map (fun c => if url_escapes sp c then escape c else [c]) t.
(* PathSegmentsMut::pop_if_empty *)
Definition pop_if_empty (p : text) : text :=
  if (Nat.ltb 1 (length p) && match rev p with c :: _ => Ascii.eqb c "/" | [] => false end)%bool then removelast p else p.
(* PathSegmentsMut::extend, for one segment *)
Definition extend1 (sp : bool) (p s : text) : text :=
  if (dot s || dots s)%bool then p else (if Nat.eqb (length p) 1 then p else p ++ ["/"]) ++ encode_segment sp s.
(* factory.rs 150-157: the URL of a table; None: the error for URLs that cannot be a base *)
Definition table_url (u : url) (table_path : text) : option url :=
  if opaque u then None
  else Some {| special := special u; opaque := false; authority := authority u;
               upath := fold_left (extend1 (special u)) (split "/" table_path) (pop_if_empty (upath u)) |}.

(* Url::join. References of letters, digits, - _ . and / are modelled, others are left to [other]. The segments of a path come after its first slash. *)
Definition plain (c : ascii) : bool :=
  let n := nat_of_ascii c in
  ((Nat.leb 48 n && Nat.leb n 57) || (Nat.leb 65 n && Nat.leb n 90) || (Nat.leb 97 n && Nat.leb n 122) || among "-_." c)%bool.
Definition is_last (r : list (list ascii)) : bool := match r with [] => true | _ => false end.
Fixpoint push_segments (acc l : list (list ascii)) : list (list ascii) :=
  match l with
  | [] => acc
  | s :: r =>
      if dots s then push_segments (if is_last r then removelast acc ++ [[]] else removelast acc) r
      else if dot s then push_segments (if is_last r then acc ++ [[]] else acc) r
      else push_segments (acc ++ [s]) r
  end.
Definition segments (p : text) : list (list ascii) := match p with [] => [] | _ :: r => split "/" r end.
Definition with_segments (u : url) (l : list (list ascii)) : url :=
  {| special := special u; opaque := opaque u; authority := authority u; upath := "/" :: joined l |}.
Definition join (other : url -> list ascii -> option url) (u : url) (t : text) : option url :=
  if forallb (fun c => plain c || Ascii.eqb c "/")%bool t then
    match t with
    | [] => Some u
    | a :: r =>
        if Ascii.eqb a "/" then
          match r with
          | b :: _ => if Ascii.eqb b "/" then other u t else Some (with_segments u (push_segments [] (split "/" r)))
          | [] => Some (with_segments u [[]])
          end
        else Some (with_segments u (push_segments (removelast (segments (upath u))) (split "/" t)))
    end
  else other u t.

(* ---- Places ---- *)
(* The object store that is used, and the parts of the path in it. [connection]: the options of a client, sorted by key. *)
Notation connection := (list (string * string)) (only parsing).
Inductive root := Configured | Bucket (name : list ascii) (opts : list (string * string)).
Record place := { in_root : root; parts : list (list ascii) }.

(* build_object_store_from_opts (object_store_factory/src/lib.rs 160-180) puts the path of the URL in front, factory.rs 146-148 adds the path of the table *)
Definition custom_place (u : url) (o : connection) (table_path : text) : place :=
  {| in_root := Bucket (authority u) o; parts := path_from (upath u) ++ path_from table_path |}.

(* wrapped.rs 25-70: the configured store; its root ends with a slash *)
Record configured := { root_uri : url; prefix : option (list ascii) }.
(* wrapped.rs 90-102 table_prefix *)
Definition table_prefix (c : configured) (t : text) : list (list ascii) :=
  match prefix c with Some p => path_from (p ++ "/" :: t) | None => path_from t end.

(* ---- Iceberg tables, metastore.rs 225-231: location and path of the metadata ---- *)
Fixpoint trim_start (t : text) : text := match t with c :: r => if Ascii.eqb c "/" then trim_start r else t | [] => [] end.
Definition trim_end (t : text) : text := rev (trim_start (rev t)).
Definition metadata_path (location table_path : text) : text := trim_end location ++ "/" :: trim_start table_path.

(* ---- Data sync ---- *)
Section Sync.
  Variable other : url -> list ascii -> option url.      (* Url::join of other references *)
  Variable config : option configured.                   (* the object store of the configuration *)
  Variable change : Type.

  (* DataSyncCommand: the path, and the location and options of the store *)
  Record command := { path : list ascii; store : option (url * list (string * string)) }.
  Inductive outcome := Dest (uri : list ascii) (p : place) | Refused | Panics.
  (* handler.rs 176-206 (format Delta), wrapped.rs 111-121 get_log_store *)
  Definition destination (c : command) : outcome :=
    match store c with
    | None =>
        match config with
        | None => Refused
        | Some i => match join other (root_uri i) (path c) with
                    | Some u => Dest (url_text u) {| in_root := Configured; parts := table_prefix i (path c) |}
                    | None => Panics
                    end
        end
    | Some (u, o) => match table_url u (path c) with Some v => Dest (url_text v) (custom_place u o (path c)) | None => Refused end
    end.

  (* writer.rs 103-114 DataSyncCollection: the log store and the changes; writer.rs 74: the queue in order of insertion *)
  Record entry := { key : list ascii; goes_to : place; waiting : list change }.
  Record state := { queue : list entry; lake : list (place * change) }.
  Definition start : state := {| queue := []; lake := [] |}.
  (* writer.rs 229-270: the changes go to the entry of their URL, which keeps the log store it was made with *)
  Fixpoint enqueue (q : list entry) (k : text) (p : place) (ch : change) : list entry :=
    match q with
    | [] => [{| key := k; goes_to := p; waiting := [ch] |}]
    | e :: q => if teqb (key e) k then {| key := key e; goes_to := goes_to e; waiting := waiting e ++ [ch] |} :: q else e :: enqueue q k p ch
    end.
  (* writer.rs 390-510 flush_syncs: the changes of one URL are written to its log store and the entry is removed *)
  Fixpoint taken (q : list entry) (k : text) : option entry :=
    match q with [] => None | e :: q => if teqb (key e) k then Some e else taken q k end.
  Definition without (q : list entry) (k : text) : list entry := filter (fun e => negb (teqb (key e) k)) q.

  (* Which URL is flushed when is up to the criteria of writer.rs 330-386 (age, size, number of messages): any order is possible here *)
  Inductive event := Put (c : command) (ch : change) | Flush (k : list ascii).
  Definition step (s : state) (e : event) : state :=
    match e with
    | Put c ch => match destination c with Dest k p => {| queue := enqueue (queue s) k p ch; lake := lake s |} | _ => s end
    | Flush k =>
        match taken (queue s) k with
        | Some e => {| queue := without (queue s) k; lake := lake s ++ map (pair (goes_to e)) (waiting e) |}
        | None => s
        end
    end.
  Definition run (l : list event) : state := fold_left step l start.
End Sync.
Arguments key {_}. Arguments goes_to {_}. Arguments waiting {_}. Arguments queue {_}. Arguments lake {_}. Arguments Put {_}. Arguments Flush {_}.
Arguments start {_}. Arguments enqueue {_}. Arguments taken {_}. Arguments without {_}.
