(* C102 (changes reach the table their command names), C103 (a table is stored where its location says).
   Specification: LocSpec.v, model: LocModel.v. *)
From Coq Require Import Ascii String List Bool Arith Lia.
From Verif Require Import LocModel LocSpec LocProofs.
Import ListNotations.
Open Scope char_scope.

(* ---- C102 ---- *)
Section Queue.
  Context (other : url -> list ascii -> option url) (config : option configured) {change : Type}.
  Notation wf d q := (flat_map (fun e : entry change => if place_eq (goes_to e) d then waiting e else []) q).
  Lemma wf_none d (q : list (entry change)) : (forall e, In e q -> goes_to e <> d) -> wf d q = [].
  Proof.
    induction q as [|e q IH]; intros H; [reflexivity|]. cbn [flat_map]. destruct (place_eq (goes_to e) d) as [E|_]; [exfalso; exact (H e (or_introl eq_refl) E)|].
    apply IH. intros x I. apply H. right. exact I.
  Qed.
  Lemma wf_enqueue d (q : list (entry change)) k p ch : NoDup (map key q) -> (forall e, In e q -> (key e = k <-> goes_to e = p)) ->
    wf d (enqueue q k p ch) = wf d q ++ (if place_eq p d then [ch] else []).
  Proof.
    induction q as [|e q IH]; intros ND H; [cbn; destruct (place_eq p d); reflexivity|]. cbn [map] in ND. apply NoDup_cons_iff in ND. destruct ND as [N ND]. cbn [enqueue].
    destruct (teqb (key e) k) eqn:T.
    - apply teqb_iff in T. pose proof (proj1 (H e (or_introl eq_refl)) T) as G. cbn [flat_map goes_to waiting]. rewrite G. destruct (place_eq p d) as [<-|D]; [|rewrite app_nil_r; reflexivity].
      rewrite (wf_none p q); [rewrite !app_nil_r; reflexivity|]. intros x I E. apply N. rewrite T. apply (proj2 (H x (or_intror I))) in E. rewrite <- E. apply in_map. exact I.
    - cbn [flat_map]. rewrite IH; [rewrite <- app_assoc; reflexivity|exact ND|]. intros x I. apply H. right. exact I.
  Qed.
  Lemma taken_in (q : list (entry change)) k e : taken q k = Some e -> In e q /\ key e = k.
  Proof.
    induction q as [|x q IH]; cbn [taken]; [discriminate|]. destruct (teqb (key x) k) eqn:T; [intros E; injection E as ->; apply teqb_iff in T; split; [left; reflexivity|exact T]|].
    intros E. destruct (IH E). split; [right|]; assumption.
  Qed.
  Lemma without_none (q : list (entry change)) k : ~ In k (map key q) -> without q k = q.
  Proof.
    induction q as [|x q IH]; intros N; [reflexivity|]. cbn [without filter]. cbn [map] in N. rewrite teqb_neq; [|intros E; apply N; left; exact E]. cbn [negb]. f_equal. apply IH. intros I. apply N. right. exact I.
  Qed.
  Lemma wf_without d (q : list (entry change)) k e : NoDup (map key q) -> (forall a b, In a q -> In b q -> goes_to a = goes_to b -> key a = key b) -> taken q k = Some e ->
    wf d q = (if place_eq (goes_to e) d then waiting e else []) ++ wf d (without q k).
  Proof.
    induction q as [|x q IH]; intros ND H; [discriminate|]. cbn [map] in ND. apply NoDup_cons_iff in ND. destruct ND as [N ND]. cbn [taken]. destruct (teqb (key x) k) eqn:T.
    - intros E. injection E as ->. cbn [flat_map]. unfold without. cbn [filter]. rewrite T. cbn [negb]. apply teqb_iff in T. fold (without q k). rewrite without_none; [reflexivity|]. rewrite <- T. exact N.
    - intros E. unfold without. cbn [filter]. rewrite T. cbn [negb flat_map]. fold (without q k).
      assert (Q : forall a b, In a q -> In b q -> goes_to a = goes_to b -> key a = key b) by (intros a b Ia Ib; apply H; right; assumption).
      rewrite (IH ND Q E). destruct (taken_in _ _ _ E) as [Ie Ke]. destruct (place_eq (goes_to x) d) as [A|A]; [|reflexivity]. destruct (place_eq (goes_to e) d) as [B|B]; [|rewrite app_nil_l; reflexivity].
      exfalso. assert (key x = key e) by (apply H; [left; reflexivity|right; exact Ie|congruence]). apply N. rewrite H0. apply in_map. exact Ie.
  Qed.
  Lemma enqueue_keys (q : list (entry change)) k p ch : NoDup (map key q) -> NoDup (map key (enqueue q k p ch)) /\ (forall x, In x (map key (enqueue q k p ch)) -> x = k \/ In x (map key q)).
  Proof.
    induction q as [|e q IH]; intros ND; cbn [enqueue map key]; [split; [constructor; [intros []|constructor]|intros x [<-|[]]; left; reflexivity]|]. cbn [map] in ND. pose proof ND as ND0.
    apply NoDup_cons_iff in ND. destruct ND as [N ND].
    destruct (teqb (key e) k) eqn:T; cbn [map key]; [split; [exact ND0|intros x I; right; exact I]|]. destruct (IH ND) as [A B]. split.
    - constructor; [|exact A]. intros I. destruct (B _ I) as [E|E]; [|contradiction]. rewrite E, teqb_refl in T. discriminate.
    - intros x [<-|I]; [right; left; reflexivity|]. destruct (B x I) as [E|E]; [left; exact E|right; right; exact E].
  Qed.
  Lemma enqueue_in (q : list (entry change)) k p ch e : In e (enqueue q k p ch) -> (key e = k /\ goes_to e = p) \/ exists x, In x q /\ key x = key e /\ goes_to x = goes_to e.
  Proof.
    induction q as [|x q IH]; cbn [enqueue]; [intros [<-|[]]; left; split; reflexivity|]. destruct (teqb (key x) k) eqn:T.
    - intros [<-|I]; right; [exists x; split; [left; reflexivity|split; reflexivity]|exists e; split; [right; exact I|split; reflexivity]].
    - intros [<-|I]; [right; exists x; split; [left; reflexivity|split; reflexivity]|]. destruct (IH I) as [A|(y & Iy & A)]; [left; exact A|right; exists y; split; [right; exact Iy|exact A]].
  Qed.
  Lemma run_snoc (l : list (event change)) e : run other config change (l ++ [e]) = step other config change (run other config change l) e.
  Proof. unfold run. rewrite fold_left_app. reflexivity. Qed.

  Definition made_by (l : list (event change)) (e : entry change) : Prop := exists c ch, In (Put c ch) l /\ destination other config c = Dest (key e) (goes_to e).
  Lemma run_inv (l : list (event change)) : told_apart other config l ->
    NoDup (map key (queue (run other config change l))) /\ Forall (made_by l) (queue (run other config change l)) /\
    forall d, written_at d (run other config change l) ++ waiting_for d (run other config change l) = sent_to other config d l.
  Proof.
    induction l as [|e l IH] using rev_ind; intros F; [split; [constructor|split; [constructor|intros d; reflexivity]]|].
    assert (F' : told_apart other config l) by (intros c ch c' ch' k p k' p' I I'; apply (F c ch c' ch'); apply in_or_app; left; assumption).
    destruct (IH F') as (ND & MB & EQ). clear IH. rewrite run_snoc. set (s := run other config change l) in *.
    assert (W : forall x, made_by l x -> made_by (l ++ [e]) x) by (intros x (c & ch & I & D); exists c, ch; split; [apply in_or_app; left; exact I|exact D]).
    assert (SE : forall d, sent_to other config d (l ++ [e]) = sent_to other config d l ++ sent_to other config d [e]) by (intros d; unfold sent_to; apply flat_map_app).
    rewrite Forall_forall in MB. destruct e as [c ch|k]; cbn [step].
    - destruct (destination other config c) as [k p| |] eqn:D.
      + cbn [queue]. split; [apply enqueue_keys; exact ND|]. split.
        * apply Forall_forall. intros x I. apply enqueue_in in I. destruct I as [[<- <-]|(y & Iy & K & G)]; [exists c, ch; split; [apply in_or_app; right; left; reflexivity|exact D]|].
          destruct (W y (MB y Iy)) as (c' & ch' & I' & D'). exists c', ch'. split; [exact I'|]. rewrite <- K, <- G. exact D'.
        * intros d. rewrite SE, <- EQ. unfold written_at, waiting_for. cbn [lake queue]. rewrite wf_enqueue; [|exact ND|].
          -- unfold sent_to. cbn [flat_map]. rewrite D, app_nil_r, app_assoc. reflexivity.
          -- intros x I. destruct (W x (MB x I)) as (c' & ch' & I' & D'). apply (F c' ch' c ch (key x) (goes_to x) k p I'); [apply in_or_app; right; left; reflexivity|exact D'|exact D].
      + split; [exact ND|split; [apply Forall_forall; auto|]]. intros d. rewrite SE, <- EQ. unfold sent_to at 1. cbn [flat_map]. rewrite D. cbn. rewrite app_nil_r. reflexivity.
      + split; [exact ND|split; [apply Forall_forall; auto|]]. intros d. rewrite SE, <- EQ. unfold sent_to at 1. cbn [flat_map]. rewrite D. cbn. rewrite app_nil_r. reflexivity.
    - assert (Z : forall d, sent_to other config d [Flush k : event change] = []) by reflexivity. destruct (taken (queue s) k) as [x|] eqn:T.
      + cbn [queue]. split; [|split].
        * clear -ND. unfold without. induction (queue s) as [|y q IH]; [constructor|]. cbn [map] in ND. apply NoDup_cons_iff in ND. destruct ND as [N ND]. cbn [filter].
          destruct (negb (teqb (key y) k)); [|exact (IH ND)]. cbn [map]. constructor; [|exact (IH ND)]. intros I. apply N. apply in_map_iff in I. destruct I as (z & E & I). apply filter_In in I. rewrite <- E. apply in_map. apply I.
        * apply Forall_forall. intros y I. apply filter_In in I. apply W, MB, I.
        * intros d. rewrite SE, Z, app_nil_r, <- EQ. unfold written_at, waiting_for. cbn [lake queue]. rewrite flat_map_app, <- app_assoc. f_equal.
          rewrite (wf_without d (queue s) k x ND); [|intros a b Ia Ib G|exact T].
          -- f_equal. clear. induction (waiting x) as [|ch w IH]; [destruct (place_eq (goes_to x) d); reflexivity|]. cbn [map flat_map fst snd]. rewrite IH. destruct (place_eq (goes_to x) d); reflexivity.
          -- destruct (MB a Ia) as (c & ch & I & D), (MB b Ib) as (c' & ch' & I' & D'). apply (proj2 (F' c ch c' ch' _ _ _ _ I I' D D')). exact G.
      + split; [exact ND|split; [apply Forall_forall; auto|]]. intros d. rewrite SE, Z, app_nil_r. apply EQ.
  Qed.
End Queue.

(* Whatever is sent and flushed, in any order: a table has exactly the changes that were sent to it, in their order, apart from the ones that wait *)
Theorem c102_partial : forall (change : Type) other config (l : list (event change)), told_apart other config l -> forall d,
  written_at d (run other config change l) ++ waiting_for d (run other config change l) = sent_to other config d l.
Proof. intros change other config l F. apply (run_inv other config l F). Qed.
Print Assumptions c102_partial.

Lemma split_snoc p t : split "/" (p ++ "/" :: t) = split "/" p ++ split "/" t.
Proof.
  induction p as [|x p IH]; [reflexivity|]. cbn [app split]. rewrite IH. destruct (Ascii.eqb x "/"); [reflexivity|]. pose proof (split_not_nil "/" p) as N.
  destruct (split "/" p); [contradiction|]. reflexivity.
Qed.
Lemma path_from_app p t : path_from (p ++ "/" :: t) = path_from p ++ path_from t.
Proof. unfold path_from. rewrite split_snoc, map_app, filter_app. reflexivity. Qed.
Lemma normal_same t l t' l' : normal_path t l -> normal_path t' l' -> (t = t' <-> path_from t = path_from t').
Proof.
  intros N N'. split; [intros ->; reflexivity|]. rewrite (normal_from t l N), (normal_from t' l' N'). intros ->. destruct N as (_ & _ & ->), N' as (_ & _ & ->). reflexivity.
Qed.
(* With normal paths in one store, this is so for every history *)
Theorem c102_one_store_partial : forall (change : Type) other config st (l : list (event change)), one_store config st l -> forall d,
  written_at d (run other config change l) ++ waiting_for d (run other config change l) = sent_to other config d l.
Proof.
  intros change other config st l [S A]. apply c102_partial. intros c ch c' ch' k p k' p' I I' D D'.
  destruct (A c ch I) as [E (n & N)], (A c' ch' I') as [E' (n' & N')]. unfold destination in D, D'. rewrite E in D. rewrite E' in D'. pose proof (normal_same _ _ _ _ N N') as X.
  destruct st as [[u o]|].
  - destruct S as [O P]. rewrite (table_url_normal u _ n O P N) in D. rewrite (table_url_normal u _ n' O P N') in D'. injection D as <- <-. injection D' as <- <-.
    unfold url_text, custom_place. cbn [authority upath]. split.
    + intros H. apply app_inv_head, app_inv_head in H. injection H as H. rewrite H. reflexivity.
    + intros H. injection H as H. apply app_inv_head in H. apply X in H. rewrite H. reflexivity.
  - destruct config as [i|]; [|contradiction]. rewrite (join_normal other _ _ n N) in D. rewrite (join_normal other _ _ n' N') in D'. injection D as <- <-. injection D' as <- <-.
    unfold url_text, table_prefix. cbn [authority upath]. split.
    + intros H. apply app_inv_head in H. apply (app_inv_head (dir (root_uri i))) in H. rewrite H. reflexivity.
    + intros H. injection H as H. assert (Y : path_from (path c) = path_from (path c')).
      { destruct (prefix i) as [q|]; [|exact H]. rewrite !path_from_app in H. apply app_inv_head in H. exact H. }
      apply X in Y. rewrite Y. reflexivity.
Qed.
Print Assumptions c102_one_store_partial.

(* The place of a command is not told by its URL. First: for two stores with one URL and different options (two endpoints, two accounts), the changes for the
   second table are all written to the first, and acknowledged *)
Theorem c102_options_refuted : forall (change : Type) other config u o1 o2 t v (a b : change), table_url u t = Some v -> o1 <> o2 ->
  let to o := {| path := t; store := Some (u, o) |} in
  let l := [Put (to o1) a; Put (to o2) b; Flush (url_text v)] in
  let s := run other config change l in
  sent_to other config (custom_place u o1 t) l = [a] /\ sent_to other config (custom_place u o2 t) l = [b] /\
  written_at (custom_place u o1 t) s = [a; b] /\ written_at (custom_place u o2 t) s = [] /\ queue s = [].
Proof.
  intros change other config u o1 o2 t v a b T NE to l s.
  assert (P : custom_place u o1 t <> custom_place u o2 t) by (intros E; apply NE; unfold custom_place in E; congruence).
  assert (P' : custom_place u o2 t <> custom_place u o1 t) by congruence.
  assert (D : forall o, destination other config (to o) = Dest (url_text v) (custom_place u o t)) by (intros o; unfold destination, to; cbn [store path]; rewrite T; reflexivity).
  assert (S : s = {| queue := []; lake := [(custom_place u o1 t, a); (custom_place u o1 t, b)] |}).
  { unfold s, run, l. cbn [fold_left step]. rewrite (D o1), (D o2). cbn [queue lake start enqueue taken without filter key goes_to waiting]. rewrite teqb_refl. cbn [queue taken key]. rewrite teqb_refl. cbn. rewrite teqb_refl. reflexivity. }
  rewrite S. unfold l, sent_to, written_at. cbn [flat_map lake fst snd queue]. rewrite (D o1), (D o2).
  destruct (place_eq (custom_place u o1 t) (custom_place u o1 t)) as [_|?]; [|contradiction]. destruct (place_eq (custom_place u o1 t) (custom_place u o2 t)); [contradiction|].
  destruct (place_eq (custom_place u o2 t) (custom_place u o1 t)); [contradiction|]. destruct (place_eq (custom_place u o2 t) (custom_place u o2 t)) as [_|?]; [|contradiction]. auto.
Qed.
Print Assumptions c102_options_refuted.

(* Second: a/./b and a/b have one URL and different places *)
Lemma table_url_dot u n m : opaque u = false -> normal_name n -> normal_name m -> table_url u (n ++ "/" :: s_ "." ++ "/" :: m) = table_url u (n ++ "/" :: m).
Proof.
  intros O N M. unfold table_url. rewrite O. pose proof (normal_no_slash n N). pose proof (normal_no_slash m M). rewrite (split_app n (s_ "." ++ "/" :: m)), (split_app n m) by assumption.
  change (s_ "." ++ "/" :: m) with ("." :: "/" :: m). cbn [split Ascii.eqb Bool.eqb]. rewrite (split_word m) by assumption. reflexivity.
Qed.
Theorem c102_dot_refuted : forall (change : Type) other config u o n m (a b : change), opaque u = false -> normal_name n -> normal_name m ->
  let plainly := n ++ "/" :: m in let dotted := n ++ "/" :: s_ "." ++ "/" :: m in
  let to t := {| path := t; store := Some (u, o) |} in
  exists k, let l := [Put (to plainly) a; Put (to dotted) b; Flush k] in
  let s := run other config change l in
  sent_to other config (custom_place u o dotted) l = [b] /\ written_at (custom_place u o dotted) s = [] /\ written_at (custom_place u o plainly) s = [a; b] /\ queue s = [].
Proof.
  intros change other config u o n m a b O N M plainly dotted to. pose proof (table_url_dot u n m O N M) as E. fold plainly dotted in E.
  destruct (table_url u plainly) as [v|] eqn:T; [|unfold table_url in T; rewrite O in T; discriminate]. exists (url_text v). intros l s.
  assert (P : custom_place u o plainly <> custom_place u o dotted).
  { intros H. unfold custom_place in H. injection H as H. apply app_inv_head in H. unfold plainly, dotted in H. rewrite !path_from_app in H. apply app_inv_head in H.
    apply (f_equal (@length _)) in H. rewrite app_length in H. cbn in H. lia. }
  assert (P' : custom_place u o dotted <> custom_place u o plainly) by congruence.
  assert (D : destination other config (to plainly) = Dest (url_text v) (custom_place u o plainly)) by (unfold destination, to; cbn [store path]; rewrite T; reflexivity).
  assert (D' : destination other config (to dotted) = Dest (url_text v) (custom_place u o dotted)) by (unfold destination, to; cbn [store path]; rewrite E; reflexivity).
  assert (S : s = {| queue := []; lake := [(custom_place u o plainly, a); (custom_place u o plainly, b)] |}).
  { unfold s, run, l. cbn [fold_left step]. rewrite D, D'. cbn [queue lake start enqueue taken without filter key goes_to waiting]. rewrite teqb_refl. cbn [queue taken key]. rewrite teqb_refl. cbn. rewrite teqb_refl. reflexivity. }
  rewrite S. unfold l, sent_to, written_at. cbn [flat_map lake fst snd queue]. rewrite D, D'.
  destruct (place_eq (custom_place u o plainly) (custom_place u o plainly)) as [_|?]; [|contradiction]. destruct (place_eq (custom_place u o plainly) (custom_place u o dotted)); [contradiction|].
  destruct (place_eq (custom_place u o dotted) (custom_place u o dotted)) as [_|?]; [|contradiction]. auto.
Qed.
Print Assumptions c102_dot_refuted.

(* In the configured store a/../b and b have one URL and different places *)
Lemma join_up other u n m : normal_name n -> normal_name m -> exists v, join other u m = Some v /\ join other u (n ++ "/" :: s_ ".." ++ "/" :: m) = Some v.
Proof.
  intros N M. pose proof (normal_no_slash n N) as SN. pose proof (normal_no_slash m M) as SM. pose proof (normal_plain n N) as NP. pose proof (normal_plain m M) as MP. destruct N as (N1 & N2 & N3 & _), M as (M1 & M2 & M3 & _).
  exists (with_segments u (removelast (segments (upath u)) ++ [m])).
  assert (FP : forall t, Forall (fun c => plain c = true) t -> forallb (fun c => plain c || Ascii.eqb c "/")%bool t = true) by (intros t F; induction F as [|c t C F IH]; [reflexivity|]; cbn [forallb]; rewrite C, IH; reflexivity).
  assert (DM : dots m = false) by (unfold dots; apply not_true_is_false; intros Q; apply teqb_iff in Q; contradiction). assert (DM' : dot m = false) by (unfold dot; apply not_true_is_false; intros Q; apply teqb_iff in Q; contradiction).
  assert (DN : dots n = false) by (unfold dots; apply not_true_is_false; intros Q; apply teqb_iff in Q; contradiction). assert (DN' : dot n = false) by (unfold dot; apply not_true_is_false; intros Q; apply teqb_iff in Q; contradiction).
  split.
  - unfold join. rewrite (FP m MP). destruct m as [|x m]; [contradiction|]. destruct (Ascii.eqb x "/") eqn:Q; [apply Ascii.eqb_eq in Q; exfalso; apply SM; left; exact Q|]. rewrite (split_word (x :: m)) by exact SM. cbn [push_segments]. rewrite DM, DM'. reflexivity.
  - unfold join. rewrite forallb_app, (FP n NP). cbn [andb]. assert (F2 : forallb (fun c => plain c || Ascii.eqb c "/")%bool ("/" :: s_ ".." ++ "/" :: m) = true) by (cbn [forallb app s_ list_ascii_of_string]; rewrite (FP m MP); reflexivity). rewrite F2.
    assert (SP : split "/" (n ++ "/" :: s_ ".." ++ "/" :: m) = [n; [".";"."]; m]).
    { rewrite (split_app n (s_ ".." ++ "/" :: m)) by exact SN. change (s_ ".." ++ "/" :: m) with ("." :: "." :: "/" :: m). cbn [split Ascii.eqb Bool.eqb]. rewrite (split_word m) by exact SM. reflexivity. }
    rewrite SP. cbn [push_segments is_last]. rewrite DN, DN', DM, DM'. change (dots ["."; "."]) with true. cbv iota. rewrite removelast_last.
    destruct n as [|x n]; [contradiction|]. cbn [app]. destruct (Ascii.eqb x "/") eqn:Q; [apply Ascii.eqb_eq in Q; exfalso; apply SN; left; exact Q|]. reflexivity.
Qed.
Theorem c102_up_refuted : forall (change : Type) other i n m (a b : change), normal_name n -> normal_name m ->
  let up := n ++ "/" :: s_ ".." ++ "/" :: m in
  let to t := {| path := t; store := None |} in
  let at_ t := {| in_root := Configured; parts := table_prefix i t |} in
  exists k, let l := [Put (to m) a; Put (to up) b; Flush k] in
  let s := run other (Some i) change l in
  sent_to other (Some i) (at_ up) l = [b] /\ written_at (at_ up) s = [] /\ written_at (at_ m) s = [a; b] /\ queue s = [].
Proof.
  intros change other i n m a b N M up to at_. destruct (join_up other (root_uri i) n m N M) as (v & J & J'). fold up in J'. exists (url_text v). intros l s.
  assert (P : at_ m <> at_ up).
  { intros H. unfold at_ in H. injection H as H. apply (f_equal (@length _)) in H. unfold table_prefix, up in H. destruct (prefix i) as [p|]; rewrite ?path_from_app, ?app_length in H; change (n ++ "/" :: s_ ".." ++ "/" :: m) with (n ++ "/" :: (s_ ".." ++ "/" :: m)) in H;
    rewrite ?path_from_app, ?app_length in H; cbn in H; lia. }
  assert (P' : at_ up <> at_ m) by congruence.
  assert (D : destination other (Some i) (to m) = Dest (url_text v) (at_ m)) by (unfold destination, to; cbn [store path]; rewrite J; reflexivity).
  assert (D' : destination other (Some i) (to up) = Dest (url_text v) (at_ up)) by (unfold destination, to; cbn [store path]; rewrite J'; reflexivity).
  assert (S : s = {| queue := []; lake := [(at_ m, a); (at_ m, b)] |}).
  { unfold s, run, l. cbn [fold_left step]. rewrite D, D'. cbn [queue lake start enqueue taken without filter key goes_to waiting]. rewrite teqb_refl. cbn [queue taken key]. rewrite teqb_refl. cbn. rewrite teqb_refl. reflexivity. }
  rewrite S. unfold l, sent_to, written_at. cbn [flat_map lake fst snd queue]. rewrite D, D'.
  destruct (place_eq (at_ m) (at_ m)) as [_|?]; [|contradiction]. destruct (place_eq (at_ m) (at_ up)); [contradiction|].
  destruct (place_eq (at_ up) (at_ up)) as [_|?]; [|contradiction]. auto.
Qed.
Print Assumptions c102_up_refuted.

(* Third: /b and b in a directory have one place and different URLs, so that later changes can be written before earlier ones *)
Theorem c102_order_refuted : forall (change : Type) other config o bucket d n (a b : change), normal_name d -> normal_name n ->
  let u := {| special := false; opaque := false; authority := bucket; upath := "/" :: d |} in
  let to t := {| path := t; store := Some (u, o) |} in
  exists k k', let l := [Put (to n) a; Put (to ("/" :: n)) b; Flush k'; Flush k] in
  let s := run other config change l in
  sent_to other config (custom_place u o n) l = [a; b] /\ written_at (custom_place u o n) s = [b; a] /\ queue s = [].
Proof.
  intros change other config o bucket d n a b Nd N u to.
  assert (D1 : "/" :: d <> [] /\ length ("/" :: d) <> 1) by (split; [discriminate|]; destruct d as [|c d]; [destruct Nd as [Nd _]; contradiction|cbn; lia]).
  assert (B : pop_if_empty ("/" :: d) = "/" :: d).
  { unfold pop_if_empty. destruct (rev ("/" :: d)) as [|c r] eqn:E; [rewrite andb_false_r; reflexivity|]. destruct (Ascii.eqb_spec c "/") as [->|C]; [|rewrite andb_false_r; reflexivity].
    exfalso. cbn [rev] in E. destruct (rev d) as [|x y] eqn:R; [apply (f_equal (@rev _)) in R; rewrite rev_involutive in R; cbn in R; subst d; destruct Nd as [Nd _]; contradiction|].
    cbn in E. injection E as -> E. apply (normal_no_slash d Nd). apply in_rev. rewrite R. left. reflexivity. }
  assert (T : table_url u n = Some {| special := false; opaque := false; authority := bucket; upath := ("/" :: d) ++ "/" :: n |}).
  { rewrite (table_url_normal u n [n]); [|reflexivity|right; exists d; reflexivity|split; [discriminate|split; [constructor; [exact N|constructor]|reflexivity]]]. unfold base. cbn [upath u]. rewrite B.
    rewrite (proj2 (Nat.eqb_neq _ _) (proj2 D1)). reflexivity. }
  assert (T' : table_url u ("/" :: n) = Some {| special := false; opaque := false; authority := bucket; upath := ("/" :: d) ++ "/" :: "/" :: n |}).
  { unfold table_url. cbn [opaque u special authority upath]. rewrite B. cbn [split]. rewrite Ascii.eqb_refl, (split_word n (normal_no_slash n N)). cbn [fold_left]. repeat f_equal.
    assert (X : extend1 false ("/" :: d) [] = ("/" :: d) ++ ["/"]) by (unfold extend1; cbn [dot dots teqb s_ list_ascii_of_string orb encode_segment flat_map]; rewrite (proj2 (Nat.eqb_neq _ _) (proj2 D1)), app_nil_r; reflexivity).
    rewrite X. unfold extend1. destruct (normal_dot n N) as [-> ->]. cbn [orb]. rewrite (proj2 (Nat.eqb_neq _ 1)); [|rewrite app_length; cbn; destruct d; cbn; lia].
    rewrite (normal_segment false n N), <- !app_assoc. reflexivity. }
  set (v := {| special := false; opaque := false; authority := bucket; upath := ("/" :: d) ++ "/" :: n |}) in *.
  set (v' := {| special := false; opaque := false; authority := bucket; upath := ("/" :: d) ++ "/" :: "/" :: n |}) in *.
  exists (url_text v), (url_text v'). intros l s.
  assert (K : url_text v <> url_text v').
  { unfold url_text. cbn [authority upath v v']. intros H. apply app_inv_head, app_inv_head in H. injection H as H. apply (normal_no_slash n N). rewrite H. left. reflexivity. }
  assert (G : custom_place u o ("/" :: n) = custom_place u o n) by (unfold custom_place; f_equal; f_equal; change ("/" :: n) with ([] ++ "/" :: n); rewrite path_from_app; reflexivity).
  assert (D : destination other config (to n) = Dest (url_text v) (custom_place u o n)) by (unfold destination, to; cbn [store path]; rewrite T; reflexivity).
  assert (D' : destination other config (to ("/" :: n)) = Dest (url_text v') (custom_place u o n)) by (unfold destination, to; cbn [store path]; rewrite T', G; reflexivity).
  assert (S : s = {| queue := []; lake := [(custom_place u o n, b); (custom_place u o n, a)] |}).
  { unfold s, run, l. cbn [fold_left step]. rewrite D, D'. cbn [queue lake start enqueue key goes_to waiting]. rewrite (teqb_neq _ _ K). cbn [queue taken key]. rewrite (teqb_neq _ _ K), teqb_refl.
    cbn [queue lake goes_to waiting]. unfold without. cbn [filter key]. rewrite (teqb_neq _ _ K), teqb_refl. cbn [negb taken key queue]. rewrite teqb_refl. cbn [filter key negb]. rewrite teqb_refl. reflexivity. }
  rewrite S. unfold l, sent_to, written_at. cbn [flat_map lake fst snd queue]. rewrite D, D'. destruct (place_eq (custom_place u o n) (custom_place u o n)) as [_|?]; [|contradiction]. auto.
Qed.
Print Assumptions c102_order_refuted.

(* A concrete history: two tables in one store, interleaved *)
Definition ex_url : url := {| special := false; opaque := false; authority := s_ "s3://bucket"; upath := s_ "/lake" |}.
Definition ex_to (t : string) : command := {| path := s_ t; store := Some (ex_url, [("region", "eu")]%string) |}.
Definition ex_events : list (event nat) := [Put (ex_to "a/t1") 1; Put (ex_to "t2") 2; Put (ex_to "a/t1") 3; Flush (s_ "s3://bucket/lake/a/t1"); Put (ex_to "a/t1") 4].
Lemma ex_normal t l : forallb (fun n => nonempty n && negb (dot n) && negb (dots n) && forallb plain n)%bool l = true -> l <> [] -> t = joined l -> normal_path t l.
Proof.
  intros F NE E. split; [exact NE|]. split; [|exact E]. apply Forall_forall. intros n I. rewrite forallb_forall in F. specialize (F n I). rewrite !andb_true_iff in F. destruct F as [[[A B] C] D].
  repeat apply conj; [intros ->; discriminate|intros ->; discriminate|intros ->; discriminate|]. intros c J. apply ordinary_plain. exact (proj1 (forallb_forall _ _) D c J).
Qed.
Example c102_example : one_store None (Some (ex_url, [("region", "eu")]%string)) ex_events /\
  written_at {| in_root := Bucket (s_ "s3://bucket") [("region", "eu")]%string; parts := [s_ "lake"; s_ "a"; s_ "t1"] |} (run (fun _ _ => None) None nat ex_events) = [1; 3].
Proof.
  split; [|vm_compute; reflexivity]. split; [split; [reflexivity|right; exists (s_ "lake"); reflexivity]|].
  intros c ch I. cbn in I. repeat (destruct I as [I|I]; [first [discriminate|injection I as <- <-]|]); try contradiction; (split; [reflexivity|]);
    first [exists [s_ "a"; s_ "t1"]; apply ex_normal; [reflexivity|discriminate|reflexivity]|exists [s_ "t2"]; apply ex_normal; [reflexivity|discriminate|reflexivity]].
Qed.

(* ---- C103 ---- *)
(* A Delta table is inside of its store, for every path, whatever characters, dots and slashes it has *)
Theorem c103_inside : forall u o t i,
  (exists more, parts (custom_place u o t) = parts (custom_place u o []) ++ more /\ Forall proper_part more) /\
  (exists more, table_prefix i t = table_prefix i [] ++ more /\ Forall proper_part more).
Proof.
  intros u o t i. split; exists (path_from t); (split; [|apply path_from_proper]).
  - unfold custom_place. cbn [parts]. change (path_from []) with (@nil (list ascii)). rewrite app_nil_r. reflexivity.
  - unfold table_prefix. destruct (prefix i) as [p|]; [|reflexivity]. rewrite !path_from_app. change (path_from []) with (@nil (list ascii)). rewrite app_nil_r. reflexivity.
Qed.
Print Assumptions c103_inside.

Lemma path_from_slash t : path_from ("/" :: t) = path_from t.
Proof. change ("/" :: t) with ([] ++ "/" :: t). rewrite path_from_app. reflexivity. Qed.
Lemma encoded_no_slash s : ~ In "/" s -> ~ In "/" (encode_segment false s).
Proof.
  intros N I. apply in_flat_map in I. destruct I as (c & Ic & I). destruct (url_escapes false c); [exact (no_slash_in_escape c I)|]. destruct I as [->|[]]. contradiction.
Qed.
Lemma path_from_url b d : path_from (upath (bucket_url b d)) = filter nonempty (map encode_part (map (encode_segment false) (split "/" d))).
Proof.
  rewrite bucket_url_eq. cbn [upath]. rewrite path_from_slash. unfold path_from. rewrite split_joined; [reflexivity| |].
  - intros E. apply map_eq_nil in E. exact (split_not_nil "/" d E).
  - pose proof (split_no_slash d) as F. induction F as [|s l N F IH]; cbn [map]; constructor; [apply encoded_no_slash; exact N|exact IH].
Qed.
(* The names of a normal directory and of a normal path are the parts of the place, and it does not matter which of them are in the location of the store *)
Theorem c103_where_partial : forall b o d ds t ts, normal_path d ds -> normal_path t ts ->
  custom_place (bucket_url b d) o t = {| in_root := Bucket b o; parts := ds ++ ts |} /\
  custom_place (bucket_url b []) o (d ++ "/" :: t) = {| in_root := Bucket b o; parts := ds ++ ts |}.
Proof.
  intros b o d ds t ts D T. unfold custom_place. rewrite !path_from_url. cbn [authority bucket_url]. rewrite path_from_app, (normal_split d ds D), (normal_from d ds D), (normal_from t ts T). split.
  - f_equal. f_equal. destruct D as (_ & F & _). replace (map (encode_segment false) ds) with ds; [apply normal_from_list; exact F|].
    clear -F. induction F as [|n l N F IH]; [reflexivity|]. cbn [map]. rewrite (normal_segment false n N), <- IH. reflexivity.
  - reflexivity.
Qed.
Print Assumptions c103_where_partial.

Definition weight (l : list (list ascii)) : nat := length (concat l).
Lemma weight_filter l : weight (filter nonempty l) = weight l.
Proof. unfold weight. induction l as [|s l IH]; [reflexivity|]. cbn [filter concat]. destruct s as [|c s]; cbn [nonempty]; [exact IH|]. cbn [concat]. rewrite !app_length, IH. reflexivity. Qed.
Definition part_length (t : text) : nat := length (flat_map (fun c => if invalid c then escape c else [c]) t).
Lemma escape_longer : forall c, url_escapes false c = true -> length (if invalid c then escape c else [c]) < part_length (escape c).
Proof. assert (forall c, url_escapes false c = true -> Nat.ltb (length (if invalid c then escape c else [c])) (part_length (escape c)) = true) by chars. intros c E. apply Nat.ltb_lt, H, E. Qed.
Lemma part_length_app a b : part_length (a ++ b) = part_length a + part_length b.
Proof. unfold part_length. rewrite flat_map_app, app_length. reflexivity. Qed.
Lemma length_encoded s : part_length s <= part_length (encode_segment false s) /\ (forall c, In c s -> url_escapes false c = true -> part_length s < part_length (encode_segment false s)).
Proof.
  induction s as [|x s [L S]]; [split; [reflexivity|intros c []]|].
  change (encode_segment false (x :: s)) with ((if url_escapes false x then escape x else [x]) ++ encode_segment false s).
  rewrite part_length_app. change (x :: s) with ([x] ++ s). rewrite part_length_app.
  assert (X : part_length [x] = length (if invalid x then escape x else [x])) by (unfold part_length; cbn [flat_map]; rewrite app_nil_r; reflexivity).
  destruct (url_escapes false x) eqn:E.
  - pose proof (escape_longer x E). split; [lia|]. intros c I Ec. lia.
  - split; [lia|]. intros c [->|I] Ec; [congruence|]. specialize (S c I Ec). lia.
Qed.
Lemma encode_part_length s : length (encode_part s) <= length (encode_part (encode_segment false s)) /\
  (forall c, In c s -> url_escapes false c = true -> length (encode_part s) < length (encode_part (encode_segment false s))).
Proof.
  destruct (dot s) eqn:D; [apply teqb_iff in D; subst s; split; [reflexivity|intros c [<-|[]]; discriminate]|].
  destruct (dots s) eqn:DD; [apply teqb_iff in DD; subst s; split; [reflexivity|intros c [<-|[<-|[]]]; discriminate]|].
  unfold encode_part at 1 3. rewrite D, DD. fold (part_length s). destruct (length_encoded s) as [L S].
  assert (B : part_length (encode_segment false s) <= length (encode_part (encode_segment false s))).
  { unfold encode_part. destruct (dot (encode_segment false s)) eqn:E; [apply teqb_iff in E; rewrite E; vm_compute; lia|]. destruct (dots (encode_segment false s)) eqn:E'; [apply teqb_iff in E'; rewrite E'; vm_compute; lia|]. apply le_n. }
  split; [lia|]. intros c I E. specialize (S c I E). lia.
Qed.
(* A name that URLs write with an escape (with a blank, for example) is not found: in the location of the store it means another directory than in the path of
   the table, one whose name has the escapes in it *)
Theorem c103_escapes_refuted : forall b o d t c, In c d -> c <> "/" -> ~ In c url_safe ->
  custom_place (bucket_url b d) o t <> custom_place (bucket_url b []) o (d ++ "/" :: t).
Proof.
  intros b o d t c I NS E0 H. assert (E : url_escapes false c = true).
  { pose proof (url_name_char c) as U. destruct (in_dec ascii_dec c url_safe) as [?|_]; [contradiction|]. destruct (url_escapes false c); [reflexivity|discriminate]. }
  clear E0. unfold custom_place in H. rewrite !path_from_url in H. injection H as H. rewrite path_from_app in H. cbn [filter split map encode_segment flat_map encode_part dot dots teqb s_ list_ascii_of_string nonempty app] in H.
  apply app_inv_tail in H. apply (f_equal weight) in H. unfold path_from in H. rewrite !weight_filter in H.
  assert (J : exists s, In s (split "/" d) /\ In c s).
  { clear -I NS. induction d as [|x d IH]; [destruct I|]. cbn [split]. destruct (Ascii.eqb_spec x "/") as [->|X].
    - destruct I as [I|I]; [symmetry in I; contradiction|]. destruct (IH I) as (s & A & B). exists s. split; [right; exact A|exact B].
    - destruct (split "/" d) as [|s ss] eqn:Q; [exfalso; exact (split_not_nil "/" d Q)|]. destruct I as [->|I]; [exists (c :: s); split; left; reflexivity|].
      destruct (IH I) as (s' & [<-|A] & B); [exists (x :: s); split; [left; reflexivity|right; exact B]|exists s'; split; [right; exact A|exact B]]. }
  revert H J. clear -E. unfold weight. induction (split "/" d) as [|s l IH]; intros H (w & Iw & Ic); [destruct Iw|]. cbn [map concat] in H. rewrite !app_length in H. destruct (encode_part_length s) as [L S].
  assert (LL : length (concat (map encode_part l)) <= length (concat (map encode_part (map (encode_segment false) l)))).
  { clear. induction l as [|s l IH]; [reflexivity|]. cbn [map concat]. rewrite !app_length. pose proof (proj1 (encode_part_length s)). lia. }
  destruct Iw as [->|Iw]; [specialize (S c Ic E); lia|]. apply IH; [lia|exists w; split; assumption].
Qed.
Print Assumptions c103_escapes_refuted.
Example c103_example : custom_place (bucket_url (s_ "s3://bucket") (s_ "my data")) [] (s_ "t") = {| in_root := Bucket (s_ "s3://bucket") []; parts := [s_ "my%2520data"; s_ "t"] |} /\
  custom_place (bucket_url (s_ "s3://bucket") []) [] (s_ "my data/t") = {| in_root := Bucket (s_ "s3://bucket") []; parts := [s_ "my data"; s_ "t"] |} /\
  path_from (s_ "a/../../b//c") = [s_ "a"; s_ "%2E%2E"; s_ "%2E%2E"; s_ "b"; s_ "c"].
Proof. vm_compute. repeat split. Qed.

(* Iceberg: location and path are put together as texts *)
Lemma resolved_app a : forall acc b, resolved acc (a ++ b) = resolved (resolved acc a) b.
Proof. induction a as [|n a IH]; intros acc b; [reflexivity|]. cbn [app resolved]. destruct (same n (s_ "..")); [apply IH|]. destruct (same n (s_ ".") || same n [])%bool; apply IH. Qed.
Lemma resolved_proper l : Forall proper_part l -> forall acc, resolved acc l = acc ++ l.
Proof.
  induction 1 as [|n l (A & B & C & _) F IH]; intros acc; cbn [resolved]; [rewrite app_nil_r; reflexivity|]. rewrite (same_neq _ _ C), (same_neq _ _ B), (same_neq _ _ A). cbn [orb]. rewrite IH, <- app_assoc. reflexivity.
Qed.
Lemma names_trim_end t : names_of (trim_end t) = names_of t.
Proof.
  unfold trim_end. rewrite <- (rev_involutive t) at 2. induction (rev t) as [|c r IH]; [reflexivity|]. cbn [trim_start]. destruct (Ascii.eqb_spec c "/") as [->|N]; [|reflexivity].
  rewrite IH. cbn [rev]. unfold names_of. rewrite !cut_split, split_snoc, resolved_app. reflexivity.
Qed.
Lemma names_app a b : names_of (a ++ "/" :: b) = resolved (names_of a) (split "/" b).
Proof. unfold names_of. rewrite !cut_split, split_snoc, resolved_app. reflexivity. Qed.
Lemma trim_start_joined n l : proper_part n -> trim_start (joined (n :: l)) = joined (n :: l).
Proof.
  intros (A & _ & _ & S). destruct n as [|c n]; [contradiction|]. assert (c <> "/") by (intros ->; apply S; left; reflexivity).
  assert (E : exists r, joined ((c :: n) :: l) = c :: r) by (destruct l; eexists; reflexivity). destruct E as (r & ->). cbn [trim_start]. rewrite (proj2 (Ascii.eqb_neq _ _) H). reflexivity.
Qed.
Lemma proper_no_slash l : Forall proper_part l -> Forall (fun s => ~ In "/" s) l.
Proof. apply Forall_impl. intros s (_ & _ & _ & N). exact N. Qed.
(* With proper names the metadata of an Iceberg table is at its path in its location *)
Theorem c103_iceberg_partial : forall location n l, Forall proper_part (n :: l) ->
  names_of (metadata_path location (slashed (n :: l))) = names_of location ++ n :: l.
Proof.
  intros location n l F. rewrite slashed_joined. unfold metadata_path. inversion F; subst. rewrite (trim_start_joined n l) by assumption. rewrite names_app, names_trim_end, split_joined; [|discriminate|apply proper_no_slash; exact F].
  apply resolved_proper. exact F.
Qed.
Print Assumptions c103_iceberg_partial.
(* With .. it is outside *)
Theorem c103_iceberg_refuted : forall above here n l, Forall proper_part (above ++ [here]) -> Forall proper_part (n :: l) -> n <> here ->
  let location := slashed (above ++ [here]) in
  names_of location = above ++ [here] /\ forall more, names_of (metadata_path location (s_ "../" ++ slashed (n :: l))) <> names_of location ++ more.
Proof.
  intros above here n l A F D location.
  assert (L : names_of location = above ++ [here]).
  { unfold names_of, location. rewrite slashed_joined, cut_split, split_joined; [|destruct above; discriminate|apply proper_no_slash; exact A]. apply (resolved_proper _ A []). }
  split; [exact L|]. intros more E. rewrite (slashed_joined (n :: l)) in E. unfold metadata_path in E. change (s_ "../" ++ joined (n :: l)) with (s_ ".." ++ "/" :: joined (n :: l)) in E.
  change (trim_start (s_ ".." ++ "/" :: joined (n :: l))) with (s_ ".." ++ "/" :: joined (n :: l)) in E.
  rewrite names_app, names_trim_end, L, split_snoc in E. rewrite split_joined in E; [|discriminate|apply proper_no_slash; exact F]. rewrite resolved_app in E.
  change (resolved (above ++ [here]) (split "/" (s_ ".."))) with (removelast (above ++ [here])) in E. rewrite removelast_last in E. rewrite (resolved_proper _ F) in E. rewrite <- app_assoc in E. apply app_inv_head in E. injection E as E _. contradiction.
Qed.
Print Assumptions c103_iceberg_refuted.
Example c103_iceberg_example : names_of (metadata_path (s_ "file:///data/tenant1/") (s_ "../tenant2/metadata/v1.json")) = [s_ "file:"; s_ "data"; s_ "tenant2"; s_ "metadata"; s_ "v1.json"].
Proof. vm_compute. reflexivity. Qed.

(* ---- C102, C103: the place that a command names ---- *)
(* A command with normal names goes to the place that it names *)
Theorem c103_named_place : forall other config c p, names_place config c p -> exists k, destination other config c = Dest k p.
Proof.
  intros other config c [r ps] (ts & T & H). cbn [in_root parts] in H. unfold destination. destruct (store c) as [[u o]|].
  - destruct H as (b & -> & [[-> ->]|(d & ds & D & -> & ->)]).
    + unfold table_url. cbn [opaque bucket_url]. eexists. f_equal. unfold custom_place. rewrite path_from_url, (normal_from _ _ T). reflexivity.
    + rewrite (proj1 (c103_where_partial b o d ds (path c) ts D T)). unfold table_url. cbn [opaque bucket_url]. eexists. reflexivity.
  - destruct H as (i & -> & -> & H). rewrite (join_normal other (root_uri i) (path c) ts T). eexists. f_equal. f_equal. unfold table_prefix.
    destruct (prefix i) as [d|]; [destruct H as (ds & D & ->); rewrite path_from_app, (normal_from _ _ D)|subst ps]; rewrite (normal_from _ _ T); reflexivity.
Qed.
Print Assumptions c103_named_place.
(* ... so that, with normal names in one store, a table has the changes of the commands that name it *)
Theorem c102_named_partial : forall (change : Type) other config st (l : list (event change)), one_store config st l -> forall d chs, sent_in config d l chs ->
  written_at d (run other config change l) ++ waiting_for d (run other config change l) = chs.
Proof.
  intros change other config st l S d chs H. rewrite (c102_one_store_partial change other config st l S d). clear S. unfold sent_to.
  induction H as [|k l chs H IH|c ch l chs N H IH|c ch p l chs N D H IH]; cbn [flat_map]; [reflexivity|exact IH| |].
  - destruct (c103_named_place other config c d N) as (k & ->). destruct (place_eq d d) as [_|?]; [|contradiction]. rewrite IH. reflexivity.
  - destruct (c103_named_place other config c p N) as (k & ->). destruct (place_eq p d) as [?|_]; [contradiction|]. exact IH.
Qed.
Print Assumptions c102_named_partial.
Definition ex_bucket : url := bucket_url (s_ "s3://bucket") (s_ "lake").
Definition ex_put (t : string) : command := {| path := s_ t; store := Some (ex_bucket, [("region", "eu")]%string) |}.
Definition ex_history : list (event nat) := [Put (ex_put "a/t1") 1; Put (ex_put "t2") 2; Flush (s_ "s3://bucket/lake/a/t1"); Put (ex_put "a/t1") 3].
Lemma ex_names ts : forallb (fun n => nonempty n && negb (dot n) && negb (dots n) && forallb plain n)%bool ts = true -> ts <> [] ->
  names_place None {| path := slashed ts; store := Some (ex_bucket, [("region", "eu")]%string) |} {| in_root := Bucket (s_ "s3://bucket") [("region", "eu")]%string; parts := s_ "lake" :: ts |}.
Proof.
  intros F NE. exists ts. split; [apply ex_normal; [exact F|exact NE|reflexivity]|]. cbn [store]. exists (s_ "s3://bucket"). split; [reflexivity|]. right. exists (s_ "lake"), [s_ "lake"].
  split; [apply ex_normal; [reflexivity|discriminate|reflexivity]|]. split; reflexivity.
Qed.
Example c102_named_example : one_store None (Some (ex_bucket, [("region", "eu")]%string)) ex_history /\
  sent_in None {| in_root := Bucket (s_ "s3://bucket") [("region", "eu")]%string; parts := [s_ "lake"; s_ "a"; s_ "t1"] |} ex_history [1; 3].
Proof.
  split.
  - split; [split; [reflexivity|right; eexists; reflexivity]|].
    intros c ch I. cbn in I. repeat (destruct I as [I|I]; [first [discriminate|injection I as <- <-]|]); try contradiction; (split; [reflexivity|]);
      first [exists [s_ "a"; s_ "t1"]; apply ex_normal; [reflexivity|discriminate|reflexivity]|exists [s_ "t2"]; apply ex_normal; [reflexivity|discriminate|reflexivity]].
  - apply si_here; [exact (ex_names [s_ "a"; s_ "t1"] eq_refl ltac:(discriminate))|].
    eapply si_elsewhere; [exact (ex_names [s_ "t2"] eq_refl ltac:(discriminate))|discriminate|].
    apply si_flush, si_here; [exact (ex_names [s_ "a"; s_ "t1"] eq_refl ltac:(discriminate))|constructor].
Qed.
