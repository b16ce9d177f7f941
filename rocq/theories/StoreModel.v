(* Model of the cache of object stores (src/object_store/factory.rs).
   See StoreSpec.v for what the properties mean and StoreProps.v for the theorems. *)
From Coq Require Import Ascii String List NArith Bool Arith.
Import ListNotations.

(* Options are a HashMap<String, String>: pairs in the order of iteration, which depends on the random state of the map. A URL is its text
   (Url compares its serialization). *)
Notation options := (list (string * string)) (only parsing).
Fixpoint get (o : options) (k : string) : option string :=
  match o with [] => None | (k', v) :: r => if String.eqb k' k then Some v else get r k end.

(* The order of str: byte by byte *)
Fixpoint str_leb (a b : string) : bool :=
  match a, b with
  | EmptyString, _ => true
  | String _ _, EmptyString => false
  | String x a', String y b' => if (N_of_ascii x <? N_of_ascii y)%N then true else if Ascii.eqb x y then str_leb a' b' else false
  end.
(* factory.rs 53-54: pairs.sort_by_key(|i| i.0) *)
Fixpoint insert_by_key (x : string * string) (l : options) : options :=
  match l with [] => [x] | y :: r => if str_leb (fst x) (fst y) then x :: y :: r else y :: insert_by_key x r end.
Fixpoint sort_by_key (l : options) : options := match l with [] => [] | x :: r => insert_by_key x (sort_by_key r) end.

(* factory.rs 43-58 StoreCacheKey, its derived equality (HashMap: equal lengths, and every pair of the one is in the other) and its Hash *)
Record key := { url : string; opts : options }.
Definition opts_eqb (a b : options) : bool :=
  (Nat.eqb (List.length a) (List.length b) && forallb (fun kv => match get b (fst kv) with Some v => String.eqb v (snd kv) | None => false end) a)%bool.
Definition key_eqb (a b : key) : bool := (String.eqb (url a) (url b) && opts_eqb (opts a) (opts b))%bool.

(* A store that was built: the number of the attempt that built it, what it was built from and whether it was wrapped in a cache of files *)
Record store := { number : nat; made_from : key; caching : bool }.

Section Factory.
  (* std::hash::Hasher: any function of what is fed to it *)
  Variable hasher : string -> options -> N.
  Definition hash (k : key) : N := hasher (url k) (sort_by_key (opts k)).

  (* factory.rs 60-65 custom_stores: DashMap finds an entry by its hash and then by equality, and replaces an entry with an equal key *)
  Definition entry : Type := (N * key * store)%type.
  Definition matches (k : key) (e : entry) : bool := (N.eqb (fst (fst e)) (hash k) && key_eqb (snd (fst e)) k)%bool.
  Definition find (m : list entry) (k : key) : option store := match List.find (matches k) m with Some e => Some (snd e) | None => None end.
  Definition insert (m : list entry) (k : key) (s : store) : list entry := (hash k, k, s) :: filter (fun e => negb (matches k e)) m.

  (* object_store_factory::build_object_store_from_opts, whether the n-th attempt succeeds *)
  Variable builds : nat -> key -> bool.
  (* The scheme of a URL, and whether the configuration has a cache of files *)
  Variable scheme : string -> string.
  Variable file_cache : bool.

  (* factory.rs 101-136 get_log_store_for_table up to the choice of the store. Building waits for the network, so that other requests run between the
     failed lookup and the insertion. [attempts]: the number of stores that were attempted so far. *)
  Inductive answer := Served (s : store) | Failed.
  Record state := { cache : list entry; building : list key; attempts : nat; answers : list (key * answer) }.
  Definition init : state := {| cache := []; building := []; attempts := 0; answers := [] |}.
  Inductive event := Ask (k : key) | Finish (i : nat).
  Definition step (s : state) (e : event) : state :=
    match e with
    | Ask k =>
        match find (cache s) k with
        | Some st => {| cache := cache s; building := building s; attempts := attempts s; answers := answers s ++ [(k, Served st)] |}
        | None => {| cache := cache s; building := building s ++ [k]; attempts := attempts s; answers := answers s |}
        end
    | Finish i =>
        match nth_error (building s) i with
        | None => s
        | Some k =>
            let rest := firstn i (building s) ++ skipn (S i) (building s) in
            if builds (attempts s) k then
              let st := {| number := attempts s; made_from := k;
                           caching := (negb (String.eqb (scheme (url k)) "file" || String.eqb (scheme (url k)) "memory") && file_cache)%bool |} in
              {| cache := insert (cache s) k st; building := rest; attempts := S (attempts s); answers := answers s ++ [(k, Served st)] |}
            else {| cache := cache s; building := rest; attempts := S (attempts s); answers := answers s ++ [(k, Failed)] |}
        end
    end.
  Definition run (l : list event) : state := fold_left step l init.
End Factory.
