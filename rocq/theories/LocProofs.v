(* Lemmas about paths and URLs for LocProps.v *)
From Coq Require Import Ascii String List Bool Arith Lia.
From Verif Require Import LocModel LocSpec.
Import ListNotations.
Open Scope char_scope.

Lemma teqb_iff a : forall b, teqb a b = true <-> a = b.
Proof.
  induction a as [|x a IH]; intros [|y b]; cbn; try (split; [discriminate|discriminate]); [tauto|].
  rewrite andb_true_iff, IH. destruct (Ascii.eqb_spec x y) as [->|N]; split; [intros [_ ->]; reflexivity|intros E; injection E as ->; auto|intros [? _]; discriminate|intros E; congruence].
Qed.
Lemma teqb_refl a : teqb a a = true.
Proof. apply teqb_iff. reflexivity. Qed.
Lemma teqb_neq a b : a <> b -> teqb a b = false.
Proof. intros N. destruct (teqb a b) eqn:E; [|reflexivity]. apply teqb_iff in E. contradiction. Qed.

(* ---- split and joined ---- *)
Lemma split_not_nil c t : split c t <> [].
Proof. induction t as [|x t IH]; cbn; [discriminate|]. destruct (Ascii.eqb x c); [discriminate|]. destruct (split c t); discriminate. Qed.
Lemma joined_split t : joined (split "/" t) = t.
Proof.
  induction t as [|x t IH]; cbn [split]; [reflexivity|]. pose proof (split_not_nil "/" t) as N.
  destruct (Ascii.eqb_spec x "/") as [->|D].
  - destruct (split "/" t) as [|s ss] eqn:E; [contradiction|]. cbn [joined]. cbn [joined] in IH. rewrite IH. reflexivity.
  - destruct (split "/" t) as [|s ss] eqn:E; [contradiction|]. destruct ss as [|s' ss]; cbn [joined] in *; [f_equal; exact IH|]. cbn [app]. f_equal. exact IH.
Qed.
Lemma split_no_slash t : Forall (fun s => ~ In "/" s) (split "/" t).
Proof.
  induction t as [|x t IH]; cbn; [constructor; [intros []|constructor]|]. destruct (Ascii.eqb_spec x "/") as [->|D].
  - constructor; [intros []|exact IH].
  - destruct (split "/" t) as [|s ss]; [constructor; [|constructor]; intros [E|[]]; congruence|]. inversion IH; subst. constructor; [|assumption]. intros [E|I]; [congruence|contradiction].
Qed.
Lemma split_word s : ~ In "/" s -> split "/" s = [s].
Proof.
  induction s as [|x s IH]; intros N; cbn; [reflexivity|]. destruct (Ascii.eqb_spec x "/") as [->|D]; [exfalso; apply N; left; reflexivity|].
  rewrite IH; [reflexivity|]. intros I. apply N. right. exact I.
Qed.
Lemma split_app s t : ~ In "/" s -> split "/" (s ++ "/" :: t) = s :: split "/" t.
Proof.
  induction s as [|x s IH]; intros N; [reflexivity|]. cbn [app split]. destruct (Ascii.eqb_spec x "/") as [->|D]; [exfalso; apply N; left; reflexivity|].
  rewrite IH; [reflexivity|]. intros I. apply N. right. exact I.
Qed.
Lemma split_joined l : l <> [] -> Forall (fun s => ~ In "/" s) l -> split "/" (joined l) = l.
Proof.
  induction l as [|s l IH]; intros NE F; [contradiction|]. inversion F; subst. destruct l as [|s' l]; [apply split_word; assumption|].
  change (joined (s :: s' :: l)) with (s ++ "/" :: joined (s' :: l)). rewrite split_app by assumption. rewrite IH; [reflexivity|discriminate|assumption].
Qed.

(* ---- Characters ---- *)
Ltac chars := intros [[] [] [] [] [] [] [] []]; vm_compute; try discriminate; try reflexivity; auto.
Lemma ordinary_plain c : plain c = true <-> In c ordinary.
Proof.
  assert (E : plain c = existsb (Ascii.eqb c) ordinary) by (revert c; intros [[] [] [] [] [] [] [] []]; vm_compute; reflexivity).
  rewrite E, existsb_exists. split.
  - intros (x & I & Q). apply Ascii.eqb_eq in Q. subst x. exact I.
  - intros I. exists c. split; [exact I|apply Ascii.eqb_refl].
Qed.
Lemma normal_plain n : normal_name n -> Forall (fun c => plain c = true) n.
Proof. intros (_ & _ & _ & I). apply Forall_forall. intros c C. apply ordinary_plain. exact (I c C). Qed.
Lemma plain_not_slash c : plain c = true -> c <> "/".
Proof. intros P ->. vm_compute in P. discriminate. Qed.
Lemma plain_valid : forall c, plain c = true -> invalid c = false.
Proof. chars. Qed.
Lemma plain_kept sp : forall c, plain c = true -> url_escapes sp c = false.
Proof. destruct sp; chars. Qed.
Lemma no_slash_in_escape : forall c, ~ In "/" (escape c).
Proof. intros c. cut (existsb (Ascii.eqb "/") (escape c) = false); [|revert c; chars]. intros E I. assert (existsb (Ascii.eqb "/") (escape c) = true) by (apply existsb_exists; exists "/"; split; [exact I|reflexivity]). congruence. Qed.
Lemma flat_map_kept (f : ascii -> bool) t : Forall (fun c => f c = false) t -> flat_map (fun c => if f c then escape c else [c]) t = t.
Proof. induction 1 as [|c t E F IH]; cbn [flat_map]; [reflexivity|]. rewrite E, IH. reflexivity. Qed.

Lemma normal_no_slash n : normal_name n -> ~ In "/" n.
Proof. intros F I. apply normal_plain in F. apply (proj1 (Forall_forall _ _) F) in I. vm_compute in I. discriminate. Qed.
Lemma normal_names_no_slash l : Forall normal_name l -> Forall (fun s => ~ In "/" s) l.
Proof. apply Forall_impl. exact normal_no_slash. Qed.
Lemma normal_dot n : normal_name n -> dot n = false /\ dots n = false.
Proof. intros (_ & A & B & _). split; apply teqb_neq; assumption. Qed.
Lemma normal_encode n : normal_name n -> encode_part n = n.
Proof.
  intros N. destruct (normal_dot n N) as [A B]. unfold encode_part. rewrite A, B. apply flat_map_kept. pose proof (normal_plain n N) as F.
  revert F. apply Forall_impl. exact plain_valid.
Qed.
Lemma normal_segment sp n : normal_name n -> encode_segment sp n = n.
Proof. intros F. apply normal_plain in F. apply flat_map_kept. revert F. apply Forall_impl. exact (plain_kept sp). Qed.
Lemma slashed_joined l : slashed l = joined l. Proof. reflexivity. Qed.
Lemma cut_split t : cut t = split "/" t.
Proof. induction t as [|c t IH]; [reflexivity|]. cbn [cut split]. rewrite IH. destruct (ascii_dec c "/") as [->|N]; [reflexivity|]. rewrite (proj2 (Ascii.eqb_neq _ _) N). reflexivity. Qed.
Lemma url_name_char : forall c, (if in_dec ascii_dec c url_safe then [c] else percent c) = if url_escapes false c then escape c else [c].
Proof. intros [[] [] [] [] [] [] [] []]; vm_compute; reflexivity. Qed.
Lemma url_name_encode n : url_name n = encode_segment false n.
Proof. apply flat_map_ext. exact url_name_char. Qed.
Lemma bucket_url_eq b d : bucket_url b d = {| special := false; opaque := false; authority := b; upath := "/" :: joined (map (encode_segment false) (split "/" d)) |}.
Proof. unfold bucket_url. rewrite slashed_joined, cut_split. rewrite (map_ext _ _ url_name_encode). reflexivity. Qed.
Lemma same_refl a : same a a = true.
Proof. unfold same. destruct (list_eq_dec ascii_dec a a); [reflexivity|contradiction]. Qed.
Lemma same_neq a b : a <> b -> same a b = false.
Proof. intros N. unfold same. destruct (list_eq_dec ascii_dec a b); [contradiction|reflexivity]. Qed.
Lemma normal_split t l : normal_path t l -> split "/" t = l.
Proof. intros (NE & F & ->). rewrite slashed_joined. apply split_joined; [exact NE|exact (normal_names_no_slash l F)]. Qed.
Lemma normal_from_list l : Forall normal_name l -> filter nonempty (map encode_part l) = l.
Proof.
  induction 1 as [|n l N F IH]; [reflexivity|]. cbn [map filter]. rewrite (normal_encode n N), IH. destruct n as [|c n]; [destruct N as [N _]; contradiction|reflexivity].
Qed.
Lemma normal_from t l : normal_path t l -> path_from t = l.
Proof. intros N. unfold path_from. rewrite (normal_split t l N). apply normal_from_list. apply N. Qed.

(* ---- Parts are proper ---- *)
Lemma encode_part_proper t : t <> [] -> ~ In "/" t -> proper_part (encode_part t).
Proof.
  intros NE NS. unfold encode_part. destruct (dot t) eqn:D; [vm_compute; repeat split; try discriminate; intros [E|[E|[E|[]]]]; discriminate|].
  destruct (dots t) eqn:DD; [vm_compute; repeat split; try discriminate; intros [E|[E|[E|[E|[E|[E|[]]]]]]]; discriminate|].
  set (f := fun c => if invalid c then escape c else [c]).
  assert (S : ~ In "/" (flat_map f t)).
  { intros I. apply in_flat_map in I. destruct I as (c & Ic & I). unfold f in I. destruct (invalid c) eqn:E; [exact (no_slash_in_escape c I)|].
    destruct I as [->|[]]. contradiction. }
  assert (P : forall u, Forall (fun c => c = ".") u -> flat_map f t = u -> t = u).
  { clear. induction t as [|c t IH]; intros u F E; [exact E|]. cbn [flat_map] in E. unfold f in E at 1. destruct (invalid c) eqn:V.
    - exfalso. subst u. inversion F; subst. discriminate.
    - cbn [app] in E. destruct u as [|x u]; [discriminate|]. injection E as -> E. f_equal. inversion F; subst. apply IH; [assumption|reflexivity]. }
  repeat apply conj; [| | |exact S].
  - intros E. apply NE. apply (P []); [constructor|exact E].
  - intros E. apply P in E; [|repeat constructor]. subst t. discriminate.
  - intros E. apply P in E; [|repeat constructor]. subst t. discriminate.
Qed.
Lemma encode_part_nil t : encode_part t = [] -> t = [].
Proof.
  unfold encode_part. destruct (dot t); [discriminate|]. destruct (dots t); [discriminate|]. destruct t as [|c t]; [reflexivity|]. cbn [flat_map]. destruct (invalid c); discriminate.
Qed.
Lemma path_from_proper t : Forall proper_part (path_from t).
Proof.
  unfold path_from. pose proof (split_no_slash t) as F. induction (split "/" t) as [|s l IH]; [constructor|]. inversion F; subst. cbn [map filter].
  destruct (nonempty (encode_part s)) eqn:E; [|apply IH; assumption]. constructor; [|apply IH; assumption]. apply encode_part_proper; [|assumption].
  intros ->. discriminate.
Qed.

(* ---- URLs of tables with normal paths ---- *)
Lemma extend_normal sp l : Forall normal_name l -> forall p, length p <> 1 -> fold_left (extend1 sp) l p = p ++ flat_map (fun n => "/" :: n) l.
Proof.
  induction 1 as [|n l N F IH]; intros p NP; cbn [fold_left flat_map]; [rewrite app_nil_r; reflexivity|].
  assert (E : extend1 sp p n = p ++ "/" :: n).
  { unfold extend1. destruct (normal_dot n N) as [-> ->]. cbn [orb]. rewrite (proj2 (Nat.eqb_neq _ _) NP), (normal_segment sp n N), <- app_assoc. reflexivity. }
  rewrite E, IH, <- app_assoc; [reflexivity|]. rewrite app_length. cbn. destruct n as [|c n]; [destruct N as [N _]; contradiction|]. cbn. lia.
Qed.
Lemma flat_joined l : l <> [] -> flat_map (fun n : text => "/" :: n) l = "/" :: joined l.
Proof.
  induction l as [|n l IH]; intros N; [contradiction|]. cbn [flat_map]. destruct l as [|m l]; [cbn; rewrite app_nil_r; reflexivity|].
  rewrite IH by discriminate. reflexivity.
Qed.
(* the path of a URL ends before the path of the table begins *)
Definition base (p : text) : text := if Nat.eqb (length (pop_if_empty p)) 1 then [] else pop_if_empty p.
Lemma root_only (p : text) : (p = [] \/ exists r, p = "/" :: r) -> length (pop_if_empty p) = 1 -> pop_if_empty p = ["/"].
Proof.
  intros S L. remember (pop_if_empty p) as q eqn:Q. assert (B : q = [] \/ exists r, q = "/" :: r).
  { subst q. unfold pop_if_empty. destruct (Nat.ltb 1 (length p) && _)%bool eqn:E; [|exact S]. destruct S as [->|(r & ->)]; [left; reflexivity|]. right.
    destruct r as [|c r]; [discriminate|]. exists (removelast (c :: r)). reflexivity. }
  destruct B as [->|(r & ->)]; [discriminate|]. destruct r; [reflexivity|discriminate].
Qed.
Lemma table_url_normal u t l : opaque u = false -> (upath u = [] \/ exists r, upath u = "/" :: r) -> normal_path t l ->
  table_url u t = Some {| special := special u; opaque := false; authority := authority u; upath := base (upath u) ++ "/" :: t |}.
Proof.
  intros O S N. unfold table_url. rewrite O, (normal_split t l N). repeat f_equal. destruct N as (NE & F & ->). unfold base.
  destruct (Nat.eqb_spec (length (pop_if_empty (upath u))) 1) as [E|E].
  - rewrite (root_only _ S E). destruct l as [|n l]; [contradiction|]. inversion F; subst. cbn [fold_left].
    assert (X : extend1 (special u) ["/"] n = "/" :: n).
    { unfold extend1. destruct (normal_dot n) as [-> ->]; [assumption|]. cbn [orb length Nat.eqb]. rewrite normal_segment by assumption. reflexivity. }
    rewrite X, extend_normal; [|assumption|]. 2: { destruct n as [|c n]; [match goal with H : normal_name [] |- _ => destruct H as [H _]; contradiction end|]. cbn. lia. }
    destruct l as [|m l]; [cbn; rewrite app_nil_r; reflexivity|]. rewrite flat_joined by discriminate. reflexivity.
  - rewrite extend_normal by assumption. rewrite flat_joined by assumption. reflexivity.
Qed.

(* ---- Url::join with normal paths ---- *)
Lemma push_normal l : Forall normal_name l -> forall acc, push_segments acc l = acc ++ l.
Proof.
  induction 1 as [|n l N F IH]; intros acc; cbn [push_segments]; [rewrite app_nil_r; reflexivity|]. destruct (normal_dot n N) as [-> ->].
  rewrite IH, <- app_assoc. reflexivity.
Qed.
Lemma normal_path_chars l : Forall normal_name l -> forallb (fun c => plain c || Ascii.eqb c "/")%bool (joined l) = true.
Proof.
  intros F. apply forallb_forall. induction F as [|n l N F IH]; [intros c []|]. assert (P : forall c, In c n -> (plain c || Ascii.eqb c "/")%bool = true).
  { intros c I. pose proof (normal_plain n N) as A. rewrite (proj1 (Forall_forall _ _) A c I). reflexivity. }
  destruct l as [|m l]; [exact P|]. intros c I. change (joined (n :: m :: l)) with (n ++ "/" :: joined (m :: l)) in I. apply in_app_iff in I. destruct I as [I|[<-|I]]; [exact (P c I)|apply orb_true_r|exact (IH c I)].
Qed.
Lemma joined_app a b : b <> [] -> joined (a ++ b) = flat_map (fun n => n ++ ["/"]) a ++ joined b.
Proof.
  intros NE. induction a as [|x a IH]; [reflexivity|]. cbn [app flat_map]. destruct (a ++ b) as [|y r] eqn:E; [destruct a; [contradiction|discriminate]|].
  change (joined (x :: y :: r)) with (x ++ "/" :: joined (y :: r)). rewrite IH. rewrite <- !app_assoc. reflexivity.
Qed.
Definition dir (u : url) : text := "/" :: flat_map (fun n => n ++ ["/"]) (removelast (segments (upath u))).
Lemma join_normal other u t l : normal_path t l ->
  join other u t = Some {| special := special u; opaque := opaque u; authority := authority u; upath := dir u ++ t |}.
Proof.
  intros N. unfold join. pose proof (normal_split t l N) as S. destruct N as (NE & F & ->). rewrite slashed_joined in *. rewrite (normal_path_chars l F).
  destruct (joined l) as [|a r] eqn:E.
  { destruct l as [|n l]; [contradiction|]. inversion F; subst. destruct n as [|c n]; [match goal with H : normal_name [] |- _ => destruct H as [H _]; contradiction end|].
    destruct l; cbn in E; discriminate. }
  assert (A : a <> "/").
  { destruct l as [|n l]; [contradiction|]. inversion F; subst. destruct n as [|c n]; [match goal with H : normal_name [] |- _ => destruct H as [H _]; contradiction end|].
    assert (c = a) by (destruct l; cbn in E; congruence). subst c. match goal with H : normal_name _ |- _ => apply normal_plain in H; inversion H; subst end.
    apply plain_not_slash. assumption. }
  rewrite (proj2 (Ascii.eqb_neq _ _) A). unfold with_segments, dir. rewrite S. rewrite (push_normal l F), (joined_app _ _ NE), E. reflexivity.
Qed.
