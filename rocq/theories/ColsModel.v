(* The columns of a sync message: which messages SyncSchema::try_new accepts when columns have nested types, and how the names of the
   columns are resolved when the changes of one message are written to a table (sync/schema/mod.rs, sync/planner.rs, sync/utils.rs).
   SyncDataModel.v models the rows; there types and names are numbers and no type is nested. *)
Require Import Coq.Strings.Ascii Coq.Strings.String Coq.Lists.List Coq.Bool.Bool Coq.Arith.Arith.
Import ListNotations.
Open Scope string_scope.
Open Scope list_scope.

(* Arrow types, as far as their nesting matters. Maps, large and fixed-size lists are [ListOf] (one child), unions are [Struct],
   a dictionary has the children of its values. *)
Inductive dtype := Boolean | Prim (n : nat) | Struct (fs : list (string * dtype)) | ListOf (n : string) (t : dtype) | Dict (v : dtype).
Notation field := (string * dtype)%type (only parsing).

(* arrow-schema Field::fields: the fields below a field, in order *)
Fixpoint children (t : dtype) : list field :=
  match t with
  | Struct fs => flat_map (fun f => f :: children (snd f)) fs
  | ListOf n t => (n, t) :: children t
  | Dict v => children v
  | _ => []
  end.
(* arrow-schema Schema::flattened_fields *)
Definition flattened (s : list field) : list field := flat_map (fun f => f :: children (snd f)) s.

(* equality of types *)
Fixpoint dtype_eqb (a b : dtype) : bool :=
  match a, b with
  | Boolean, Boolean => true
  | Prim n, Prim m => Nat.eqb n m
  | Struct fs, Struct gs =>
      (fix eqs (fs gs : list field) : bool :=
         match fs, gs with
         | [], [] => true
         | (n, t) :: fs, (m, u) :: gs => String.eqb n m && dtype_eqb t u && eqs fs gs
         | _, _ => false
         end) fs gs
  | ListOf n t, ListOf m u => String.eqb n m && dtype_eqb t u
  | Dict t, Dict u => dtype_eqb t u
  | _, _ => false
  end.

(* clade sync.proto ColumnRole, ColumnDescriptor; an unknown role number is None *)
Inductive role := OldPk | NewPk | Changed | Value.
Definition role_eqb (a b : role) : bool :=
  match a, b with OldPk, OldPk | NewPk, NewPk | Changed, Changed | Value, Value => true | _, _ => false end.
Record desc := { d_role : option role; d_name : string }.
(* schema/mod.rs:196-200 SyncColumn *)
Record column := { c_role : role; c_name : string; c_field : field }.

Definition has_role (r : role) (d : desc) : bool := match d_role d with Some q => role_eqb q r | None => false end.
(* schema/mod.rs:33-69: the check of one descriptor with its field *)
Definition check_one (descs : list desc) (x : desc * field) : bool :=
  let '(d, (_, t)) := x in
  match d_role d with
  | None => false
  | Some Changed => dtype_eqb t Boolean && existsb (fun o => String.eqb (d_name d) (d_name o) && has_role Value o) descs
  | Some _ => true
  end.
(* schema/mod.rs:31-39: the names and types with a role *)
Definition keys (r : role) (z : list (desc * field)) : list (string * dtype) :=
  map (fun x => (d_name (fst x), snd (snd x))) (filter (fun x => has_role r (fst x)) z).
Definition key_eqb (a b : string * dtype) : bool := String.eqb (fst a) (fst b) && dtype_eqb (snd a) (snd b).
Definition subset (a b : list (string * dtype)) : bool := forallb (fun x => existsb (key_eqb x) b) a.
Definition is_nil {A} (l : list A) : bool := match l with [] => true | _ => false end.
(* schema/mod.rs:95-110: descriptors beyond the fields are dropped by zip *)
Definition to_column (x : desc * field) : column :=
  {| c_role := match d_role (fst x) with Some r => r | None => OldPk end; c_name := d_name (fst x); c_field := snd x |}.
(* schema/mod.rs:19-118 SyncSchema::try_new. Line 24 counts the flattened fields, lines 36 and 97 pair the descriptors with the fields
   that are not flattened. *)
Definition try_new (descs : list desc) (fields : list field) (validate_pks : bool) : option (list column) :=
  let z := combine descs fields in
  if negb (Nat.eqb (length descs) (length (flattened fields))) then None
  else if negb (forallb (check_one descs) z) then None
  else if validate_pks && (is_nil (keys OldPk z) || is_nil (keys NewPk z)
                           || negb (subset (keys OldPk z) (keys NewPk z) && subset (keys NewPk z) (keys OldPk z))) then None
  else Some (map to_column z).

(* schema/mod.rs:93-110 and 148-153: the index of a role and name is that of the last column that has them *)
Definition is_column (r : role) (n : string) (c : column) : bool := role_eqb (c_role c) r && String.eqb (c_name c) n.
Definition column_of (r : role) (n : string) (cs : list column) : option column := find (is_column r n) (rev cs).

(* datafusion-common Column::from_qualified_name, which turns the string given to col() or join() into a column: an unquoted identifier
   is put into lower case. What happens to names that are no plain identifier (with dots, quotes, blanks) is a parameter. *)
Definition lower_ascii (a : ascii) : ascii :=
  let n := nat_of_ascii a in if Nat.leb 65 n && Nat.leb n 90 then ascii_of_nat (n + 32) else a.
Fixpoint lower (s : string) : string := match s with EmptyString => EmptyString | String a s' => String (lower_ascii a) (lower s') end.
Definition letter (a : ascii) : bool :=
  let n := nat_of_ascii a in (Nat.leb 65 n && Nat.leb n 90) || (Nat.leb 97 n && Nat.leb n 122) || Nat.eqb n 95.
Definition digit (a : ascii) : bool := let n := nat_of_ascii a in Nat.leb 48 n && Nat.leb n 57.
Fixpoint all_word (s : string) : bool := match s with EmptyString => true | String a s' => (letter a || digit a) && all_word s' end.
Definition plain (s : string) : bool := match s with EmptyString => false | String a s' => letter a && all_word s' end.

(* schema/mod.rs:226-228 canonical_field_name *)
Definition role_name (r : role) : string := match r with OldPk => "old_pk" | NewPk => "new_pk" | Changed => "changed" | Value => "value" end.
Definition canonical (r : role) (n : string) : string := role_name r ++ "_" ++ n.

(* where the flush takes a column of the table from *)
Inductive source :=
| Kept                                            (* the row of the table; NULL for new rows *)
| Taken (f : string)                              (* a field of the message *)
| TakenIf (flag f : string)                       (* a field of the message if the flag is true *)
| Key (old new : string).                         (* key column: deletes use the old field, upserts the new one *)

Fixpoint nodupb (l : list string) : bool := match l with [] => true | x :: l => negb (existsb (String.eqb x) l) && nodupb l end.
Definition names (s : list field) : list string := map fst s.

Section Plan.
  (* the parser of identifiers on other names: the qualifier if any, and the name *)
  Variable parse_other : string -> option string * string.
  Definition ident (s : string) : option string * string := if plain s then (None, lower s) else parse_other s.

  (* DFSchema::field_from_column on a relation with one qualifier *)
  Definition resolve (relation : string) (fs : list string) (s : string) : option string :=
    let '(q, m) := ident s in
    if match q with None => true | Some q => String.eqb q relation end
       && Nat.eqb (length (filter (String.eqb m) fs)) 1 then Some m else None.

  Definition lower_rel : string := "__lower_rel".           (* planner.rs:33-35 *)
  Definition upper_rel : string := "__upper_rel".
  Definition upsert_col : string := "__upsert_col".

  Fixpoint collect {A B} (f : A -> option B) (l : list A) : option (list B) :=
    match l with
    | [] => Some []
    | x :: l => match f x, collect f l with Some y, Some r => Some (y :: r) | _, _ => None end
    end.

  (* utils.rs:86-90: one row converter for old and new keys, made of the types of the old ones *)
  Definition types_of (r : role) (cs : list column) : list dtype := map (fun c => snd (c_field c)) (filter (fun c => role_eqb (c_role c) r) cs).
  Fixpoint types_eqb (a b : list dtype) : bool :=
    match a, b with [], [] => true | x :: a, y :: b => dtype_eqb x y && types_eqb a b | _, _ => false end.
  (* and utils.rs:211-222: each flag column needs its value column *)
  Definition squash_ok (cs : list column) : bool :=
    types_eqb (types_of OldPk cs) (types_of NewPk cs)
    && forallb (fun c => match c_role c with Changed => match column_of Value (c_name c) cs with Some _ => true | None => false end | _ => true end) cs.

  (* planner.rs:548-585 with utils.rs:252-307: the qualifier names the key columns that have a value in the message *)
  Definition prune_ok (table : list field) (has_values : string -> bool) (cs : list column) : bool :=
    forallb (fun c => negb (match c_role c with OldPk | NewPk => has_values (c_name c) | _ => false end)
                      || match resolve lower_rel (names table) (c_name c) with Some _ => true | None => false end) cs.

  (* planner.rs:292-425 normalize_syncs for one message, whose fields are those of a relation: for each old key, flag and value column the
     role and name of the normalized column and the fields it is computed from *)
  Definition normalize_one (cs : list column) (fs : list string) (c : column) : option (list (role * string * source)) :=
    match c_role c with
    | OldPk =>
        match column_of NewPk (c_name c) cs with
        | Some c' =>
            match resolve lower_rel fs (fst (c_field c)), resolve lower_rel fs (fst (c_field c')) with
            | Some o, Some n => Some [(NewPk, c_name c, Key o n)]
            | _, _ => None
            end
        | None => None                                       (* unwrap of None *)
        end
    | NewPk => Some []
    | r => match resolve lower_rel fs (fst (c_field c)) with Some f => Some [(r, c_name c, Taken f)] | None => None end
    end.
  (* line 133 (scan): the fields must have different names; lines 403-408: so must the projected columns *)
  Definition normalize (cs : list column) : option (list (role * string * source)) :=
    let fs := map (fun c => fst (c_field c)) cs in
    if negb (nodupb fs) then None
    else match collect (normalize_one cs fs) cs with
         | Some l => let l := concat l in if nodupb (map (fun x => canonical (fst (fst x)) (snd (fst x))) l) then Some l else None
         | None => None
         end.

  Definition norm_of (r : role) (n : string) (l : list (role * string * source)) : option source :=
    match find (fun x => role_eqb (fst (fst x)) r && String.eqb (snd (fst x)) n) (rev l) with Some x => Some (snd x) | None => None end.

  (* planner.rs:455-481 and LogicalPlanBuilder::join: a pair of keys, the base first; if the first is not found there the other way round *)
  Definition norm_names (l : list (role * string * source)) : list string :=
    map (fun x => canonical (fst (fst x)) (snd (fst x))) l ++ [upsert_col].
  Definition found {A} (o : option A) : bool := match o with Some _ => true | None => false end.
  Definition join_pair (table : list field) (l : list (role * string * source)) (n : string) : bool :=
    let r := canonical NewPk n in
    if found (resolve lower_rel (names table) n) then found (resolve upper_rel (norm_names l) r)
    else found (resolve upper_rel (norm_names l) n) && found (resolve lower_rel (names table) r).
  Definition key_names (l : list (role * string * source)) : list string :=
    map (fun x => snd (fst x)) (filter (fun x => role_eqb (fst (fst x)) NewPk) l).

  (* planner.rs:485-533: one expression for each flattened field of the table; all of them name the field of the table *)
  Definition apply_one (table : list field) (l : list (role * string * source)) (f : field) : option (string * source) :=
    let n := fst f in
    if existsb (String.eqb n) (names table) then
      Some (n, match norm_of Value n l with
               | Some (Taken v) => match norm_of Changed n l with Some (Taken c) => TakenIf c v | _ => Taken v end
               | _ => match norm_of NewPk n l with
                      | Some (Key o k) => match norm_of Changed n l with Some (Taken c) => TakenIf c k | _ => Key o k end
                      | _ => Kept
                      end
               end)
    else None.
  (* planner.rs:54-112 plan_delta_syncs for one pending message, after writer.rs:528-580 has squashed it. Simplifications: the table has
     no column with the name of one of the three relations or flags; the types of the columns agree with those of the table. *)
  Definition plan (table : list field) (has_values : string -> bool) (cs : list column) : option (list (string * source)) :=
    if negb (squash_ok cs) then None
    else if negb (prune_ok table has_values cs) then None
    else match normalize cs with
         | None => None
         | Some l =>
             if negb (forallb (join_pair table l) (key_names l)) then None
             else if negb (nodupb (names (flattened table))) then None
             else collect (apply_one table l) (flattened table)
         end.
End Plan.

(* writer.rs:289-319 create_table: the columns of a table that a message creates. Columns of the same name become one (the later one, in
   the place of the former: delta-kernel StructType is an IndexMap). *)
Fixpoint put_field (f : field) (l : list field) : list field :=
  match l with [] => [f] | g :: l => if String.eqb (fst g) (fst f) then f :: l else g :: put_field f l end.
Definition created (cs : list column) : list field :=
  fold_left (fun l c => match c_role c with NewPk | Value => put_field (c_name c, snd (c_field c)) l | _ => l end) cs [].
