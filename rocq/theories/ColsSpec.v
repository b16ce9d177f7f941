(* Vocabulary for C136 and C137: nested columns, names that need no translation, and what a flush should take each column from. *)
Require Import Coq.Strings.Ascii Coq.Strings.String Coq.Lists.List Coq.Bool.Bool Coq.Arith.Arith.
Require Import Verif.ColsModel.
Import ListNotations.
Open Scope string_scope.
Open Scope list_scope.

(* a column that has fields below it; a table without such columns *)
Inductive first_inside : dtype -> string * dtype -> Prop :=
| fi_struct f fs : first_inside (Struct (f :: fs)) f
| fi_list n t : first_inside (ListOf n t) (n, t)
| fi_dict v g : first_inside v g -> first_inside (Dict v) g.
Definition nested (f : string * dtype) : Prop := exists g, first_inside (snd f) g.
Definition flat (s : list (string * dtype)) : Prop := forall f, In f s -> ~ nested f.

(* a name made of lower-case letters, digits and underscores that does not begin with a digit *)
Definition lower_case (n : string) : Prop := plain n = true /\ lower n = n.

Definition tag (c : column) : role * string := (c_role c, c_name c).
Definition field_name (c : column) : string := fst (c_field c).
Definition is_key (c : column) : Prop := c_role c = OldPk \/ c_role c = NewPk.

(* the messages that are written as they should be *)
Record orderly (table : list (string * dtype)) (cs : list column) : Prop := {
  o_tags : NoDup (map tag cs);                                        (* no two columns with the same role and name *)
  o_fields : NoDup (map field_name cs);                               (* no two fields with the same name *)
  o_lower_fields : forall c, In c cs -> lower_case (field_name c);
  o_lower_keys : forall c, In c cs -> is_key c -> lower_case (c_name c);
  o_order : types_of OldPk cs = types_of NewPk cs;                    (* old and new keys in the same order, up to types *)
  o_keys : forall c, In c cs -> is_key c -> In (c_name c) (map fst table)
}.

(* what the flush of a message should take a column of the table from *)
Inductive right (cs : list column) (n : string) : source -> Prop :=
| right_value c : In c cs -> tag c = (Value, n) -> (forall d, In d cs -> tag d <> (Changed, n)) -> right cs n (Taken (field_name c))
| right_flag c d : In c cs -> tag c = (Value, n) -> In d cs -> tag d = (Changed, n) -> right cs n (TakenIf (field_name d) (field_name c))
| right_key o k : In o cs -> tag o = (OldPk, n) -> In k cs -> tag k = (NewPk, n) -> (forall d, In d cs -> tag d <> (Value, n)) ->
    right cs n (Key (field_name o) (field_name k))
| right_kept : (forall d, In d cs -> tag d <> (Value, n) /\ tag d <> (NewPk, n)) -> right cs n Kept.

(* descriptors that describe the fields one by one and satisfy the rules of the protocol *)
Record proper (descs : list desc) (fields : list (string * dtype)) : Prop := {
  p_length : length descs = length fields;
  p_roles : forall d, In d descs -> d_role d <> None;
  p_flags : forall i d f, nth_error descs i = Some d -> nth_error fields i = Some f -> d_role d = Some Changed ->
    snd f = Boolean /\ exists o, In o descs /\ d_role o = Some Value /\ d_name o = d_name d;
  p_some : exists d, In d descs /\ d_role d = Some OldPk;
  p_keys : forall n t,
    (exists i d f, nth_error descs i = Some d /\ nth_error fields i = Some f /\ d_role d = Some OldPk /\ d_name d = n /\ snd f = t) <->
    (exists i d f, nth_error descs i = Some d /\ nth_error fields i = Some f /\ d_role d = Some NewPk /\ d_name d = n /\ snd f = t)
}.
(* the columns are the fields with their descriptors *)
Definition described (descs : list desc) (fields : list (string * dtype)) (cs : list column) : Prop :=
  map c_field cs = fields /\ map (fun c => (Some (c_role c), c_name c)) cs = map (fun d => (d_role d, d_name d)) descs.
