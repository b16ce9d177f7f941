(* What the properties C104 to C108 talk about. *)
From Coq Require Import Ascii String List Bool Arith.
From Verif Require Import MetaModel.
Import ListNotations.
Open Scope string_scope.
Open Scope list_scope.

(* A listing in which names say which schema, table and store is meant, and none of the names of the built-in schemas is used *)
Definition clear_listing (l : listing) : Prop :=
  NoDup (map s_name (schemas l)) /\ NoDup (map l_name (stores l)) /\ Forall (fun s => NoDup (map t_name (s_tables s))) (schemas l) /\
  ~ In "staging" (map s_name (schemas l)) /\ ~ In "system" (map s_name (schemas l)).

(* The table called t in the schema called s of the listing *)
Definition listed (l : listing) (s t : string) (o : table_object) : Prop :=
  exists so, In so (schemas l) /\ s_name so = s /\ In o (s_tables so) /\ t_name o = t.

Section Spec.
  Context {handle : Type} (open_delta : string -> list (string * string) -> string -> option handle) (open_default : string -> option handle)
          (open_iceberg : string -> list (string * string) -> string -> option handle) (loads : handle -> bool).
  (* The table as it is described: in the store of that name, or in the configured store, at its path *)
  Inductive described (l : listing) (o : table_object) : provider handle -> Prop :=
  | DDelta n st h : t_format o = Delta -> t_store o = Some n -> In st (stores l) -> l_name st = n -> open_delta (l_url st) (l_options st) (t_path o) = Some h -> described l o (DeltaTable h)
  | DDefault h : t_format o = Delta -> t_store o = None -> open_default (t_path o) = Some h -> described l o (DeltaTable h)
  | DIceberg n st h : t_format o = Iceberg -> t_store o = Some n -> In st (stores l) -> l_name st = n -> open_iceberg (l_url st) (l_options st) (t_path o) = Some h -> described l o (IcebergTable h).
  (* A table that cannot be opened as it is described *)
  Definition broken (l : listing) (o : table_object) : Prop := forall p, ~ described l o p.
  (* A listing in which every table can be opened: Delta tables are not read for that *)
  Definition all_open (l : listing) : Prop := forall s t o, listed l s t o -> exists p, described l o p.
  (* A table that can be read *)
  Definition readable (p : provider handle) : Prop := match p with DeltaTable h => loads h = true | IcebergTable _ => True end.
End Spec.

(* The catalog that a query should see: of its inline metastore, or of the server when the query began *)
Section Sessions.
  Context {C : Type}.
  (* What the queries see in a schedule, next to what they should see. A query looks tables up after it reloaded once. *)
  Fixpoint expected (reqs : nat -> request C) (server : option C) (seen : nat -> option (option C)) (l : list (step C)) : list (nat * option C) :=
    match l with
    | [] => []
    | Reload q :: l => expected reqs server (fun i => if Nat.eqb i q then Some (match inline (reqs q) with Some c => Some c | None => server end) else seen i) l
    | Lookup q :: l => match seen q with Some c => (q, c) :: expected reqs server seen l | None => expected reqs server seen l end
    | ServerChanges c :: l => expected reqs c seen l
    end.
  (* Every query looks up tables only after it reloaded, and it reloads only when there is a catalog *)
  Fixpoint orderly (reqs : nat -> request C) (server : option C) (begun : list nat) (l : list (step C)) : Prop :=
    match l with
    | [] => True
    | Reload q :: l => (inline (reqs q) <> None \/ server <> None) /\ ~ In q begun /\ orderly reqs server (q :: begun) l
    | Lookup q :: l => In q begun /\ orderly reqs server begun l
    | ServerChanges c :: l => orderly reqs c begun l
    end.
  (* The answers of one query *)
  Definition of_query (q : nat) (l : list (nat * option C)) : list (option C) := map snd (filter (fun x => Nat.eqb (fst x) q) l).
  (* One query after the other: its lookups directly follow its reload *)
  Inductive one_by_one : list (step C) -> Prop :=
  | Nothing : one_by_one []
  | Change c l : one_by_one l -> one_by_one (ServerChanges c :: l)
  | One q n l : one_by_one l -> one_by_one (Reload q :: repeat (Lookup q) n ++ l).
End Sessions.

(* Each lookup with all the catalogs that the server had since the query began *)
Section Since.
  Context {C : Type}.
  Fixpoint since (server : option C) (had : nat -> list (option C)) (l : list (step C)) : list (nat * list (option C)) :=
    match l with
    | [] => []
    | Reload q :: l => since server (fun i => if Nat.eqb i q then [server] else had i) l
    | Lookup q :: l => (q, had q) :: since server had l
    | ServerChanges c :: l => since c (fun i => had i ++ [c]) l
    end.
End Since.

(* Sync commands one after the other, each answered or ended by an error *)
Inductive command := Answered (q : nat) | Erred (q : nat).
Definition steps_of (c : command) : list sync_step := match c with Answered q => [Arrive q; Clear q; Respond q] | Erred q => [Arrive q; Clear q; Error q] end.
Definition answered (l : list command) : list nat := flat_map (fun c => match c with Answered q => [q] | Erred _ => [] end) l.
