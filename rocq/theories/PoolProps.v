(* C65: the memory pool that records what queries reserve.
   Specification: PoolSpec.v, model: PoolModel.v. *)
From Coq Require Import Ascii String List ZArith Bool Lia.
From Verif Require Import PoolModel PoolSpec.
Import ListNotations.
Open Scope Z_scope.

(* ---- Sums ---- *)
Lemma sum_app f a b : sum f (a ++ b) = sum f a + sum f b.
Proof. induction a as [|x a IH]; cbn; [reflexivity|]. rewrite IH. lia. Qed.
Lemma sum_ext f g l : (forall x, f x = g x) -> sum f l = sum g l.
Proof. intros E. induction l as [|x l IH]; cbn; [reflexivity|]. rewrite IH, E. reflexivity. Qed.
Definition pair_of (t : task) : call * bool := (tcall t, granted t).
Lemma split_nth (l : list task) i t : nth_error l i = Some t -> l = firstn i l ++ t :: skipn (S i) l.
Proof. revert i. induction l as [|x l IH]; intros [|i] H; cbn in *; try discriminate; [congruence|]. f_equal. exact (IH i H). Qed.
Lemma sum_set f l i t t' : nth_error l i = Some t -> pair_of t' = pair_of t -> sum f (map pair_of (set_task l i t')) = sum f (map pair_of l).
Proof.
  intros N E. unfold set_task. rewrite (split_nth l i t N) at 3. rewrite !map_app, !sum_app. cbn [map sum]. rewrite E. reflexivity.
Qed.
Lemma sum_remove f l i t : nth_error l i = Some t -> sum f (map pair_of (firstn i l ++ skipn (S i) l)) + f (pair_of t) = sum f (map pair_of l).
Proof. intros N. rewrite (split_nth l i t N) at 3. rewrite !map_app, !sum_app. cbn [map sum]. lia. Qed.

(* ---- The invariant ---- *)
Lemma direct_app p l : forall u m, direct p u (l ++ m) = let '(u', a) := direct p u l in let '(u'', a') := direct p u' m in (u'', a ++ a').
Proof.
  induction l as [|c l IH]; intros u m; cbn [direct app].
  - destruct (direct p u m); reflexivity.
  - destruct (inner_call p u c) as [u1 ok]. rewrite IH. destruct (direct p u1 l) as [u2 a]. destruct (direct p u2 m); reflexivity.
Qed.
Definition counted (s : state) : Prop := forall label,
  allocated s label true + sum (under label granted_bytes) (map pair_of (tasks s)) = sum (under label granted_bytes) (answers s) /\
  allocated s label false + sum (under label refused_bytes) (map pair_of (tasks s)) = sum (under label refused_bytes) (answers s) /\
  freed s label + sum (under label freed_bytes) (map pair_of (tasks s)) = sum (under label freed_bytes) (answers s).
Definition in_use (s : state) : Prop := used s = sum granted_bytes (answers s) - sum freed_bytes (answers s).
Lemma counted_step p s e : counted s -> counted (step p s e).
Proof.
  intros H label. destruct (H label) as (A & R & F). destruct e as [c|i]; cbn [step].
  - destruct (inner_call p (used s) c) as [u ok]. cbn [allocated freed tasks answers]. rewrite !map_app, !sum_app. cbn [map sum]. change (pair_of {| tcall := c; granted := ok; at_stage := ToRead |}) with (c, ok). split; [lia|split; lia].
  - destruct (nth_error (tasks s) i) as [t|] eqn:N; [|auto]. destruct t as [c ok [ |v| ]]; cbn [at_stage tcall granted].
    + cbn [allocated freed tasks answers]. rewrite !(sum_set _ _ _ _ _ N) by reflexivity. auto.
    + cbn [allocated freed tasks answers]. rewrite !(sum_set _ _ _ _ _ N) by reflexivity. auto.
    + pose proof (sum_remove (under label granted_bytes) _ _ _ N) as A'. pose proof (sum_remove (under label refused_bytes) _ _ _ N) as R'.
      pose proof (sum_remove (under label freed_bytes) _ _ _ N) as F'. cbn [pair_of tcall granted] in A', R', F'.
      assert (E : String.eqb (extract_consumer_name (consumer c)) label = labelled label (consumer c)) by reflexivity.
      assert (VA : under label granted_bytes (c, ok) = if labelled label (consumer c) then if (negb (is_shrink c) && ok)%bool then size c else 0 else 0) by reflexivity.
      assert (VR : under label refused_bytes (c, ok) = if labelled label (consumer c) then if (negb (is_shrink c) && negb ok)%bool then size c else 0 else 0) by reflexivity.
      assert (VF : under label freed_bytes (c, ok) = if labelled label (consumer c) then if is_shrink c then size c else 0 else 0) by reflexivity.
      change (pair_of {| tcall := c; granted := ok; at_stage := ToCount |}) with (c, ok) in A', R', F'. rewrite VA in A'. rewrite VR in R'. rewrite VF in F'.
      unfold is_shrink in A', R', F'. clear VA VR VF.
      unfold count. cbn [tcall granted]. destruct (what c) eqn:W; cbn [allocated freed tasks answers]; unfold add2, add1; rewrite E;
        destruct (labelled label (consumer c)), ok; cbn [andb negb Bool.eqb] in *; (split; [lia|split; lia]).
Qed.
Lemma in_use_step p s e : in_use s -> in_use (step p s e).
Proof.
  unfold in_use. intros H. destruct e as [c|i]; cbn [step].
  - unfold inner_call. destruct c as [[ | | ] n z]; cbn [what size]; [| |].
    + cbn [used answers]. rewrite !sum_app. cbn. lia.
    + destruct p as [limit|]; [destruct (used s + z <=? limit)|]; cbn [used answers]; rewrite !sum_app; cbn; lia.
    + cbn [used answers]. rewrite !sum_app. cbn. lia.
  - destruct (nth_error (tasks s) i) as [t|]; [|exact H]. destruct (at_stage t); try exact H. unfold count. destruct (what (tcall t)); exact H.
Qed.
Lemma run_ind p (P : state -> Prop) : P init -> (forall s e, P s -> P (step p s e)) -> forall l, P (run p l).
Proof.
  intros I S l. unfold run. revert I. generalize init. induction l as [|e l IH]; intros s H; [exact H|]. apply IH, S, H.
Qed.
Lemma run_counted p l : counted (run p l).
Proof. apply run_ind; [intros label; cbn; auto|apply counted_step]. Qed.
Lemma run_in_use p l : in_use (run p l).
Proof. apply run_ind; [reflexivity|apply in_use_step]. Qed.

(* ---- C65 ---- *)
(* The wrapped pool answers every call, and ends up, exactly as the pool inside would on its own, however the threads interleave *)
Theorem c65_transparent p l : direct p 0 (calls l) = (used (run p l), answers (run p l)).
Proof.
  unfold run. change 0 with (used init). change (answers (fold_left (step p) l init)) with ([] ++ answers (fold_left (step p) l init)) at 1.
  assert (G : forall s, let '(u, a) := direct p (used s) (calls l) in used (fold_left (step p) l s) = u /\ answers (fold_left (step p) l s) = answers s ++ a).
  { induction l as [|e l IH]; intros s; [cbn; rewrite app_nil_r; auto|]. cbn [fold_left]. specialize (IH (step p s e)).
    destruct e as [c|i]; unfold calls in *; cbn [flat_map app direct] in *.
    - cbn [step] in *. destruct (inner_call p (used s) c) as [u ok]. cbn [used answers] in IH. destruct (direct p u _) as [u' a]. destruct IH as [U A].
      split; [exact U|]. rewrite A, <- app_assoc. reflexivity.
    - assert (E : used (step p s (Continue i)) = used s /\ answers (step p s (Continue i)) = answers s).
      { cbn [step]. destruct (nth_error (tasks s) i) as [t|]; [|auto]. destruct (at_stage t); try (split; reflexivity). unfold count. destruct (what (tcall t)); split; reflexivity. }
      destruct E as [E1 E2]. rewrite E1, E2 in IH. exact IH. }
  specialize (G init). destruct (direct p (used init) (calls l)) as [u a]. destruct G as [U A]. rewrite U, A. reflexivity.
Qed.
(* Consumers are counted under the part of their name before the first bracket *)
Theorem c65_label name label : counted_under name label <-> extract_consumer_name name = label.
Proof.
  unfold counted_under. revert label. induction name as [|a name IH]; intros label; cbn [extract_consumer_name].
  - split.
    + intros [[E|[r E]] _]; [exact E|]. destruct label; discriminate.
    + intros <-. split; [left; reflexivity|]. intros (x & y & E). destruct x; discriminate.
  - destruct (Ascii.eqb_spec a "[") as [->|N].
    + split.
      * intros [[E|[r E]] B].
        -- exfalso. apply B. exists EmptyString, name. cbn. congruence.
        -- destruct label as [|b label]; [reflexivity|]. exfalso. apply B. exists EmptyString, label. cbn in *. congruence.
      * intros <-. split; [right; exists name; reflexivity|]. intros (x & y & E). destruct x; discriminate.
    + split.
      * intros [D B]. destruct label as [|b label].
        { destruct D as [E|[r E]]; [discriminate|]. cbn in E. congruence. }
        assert (b = a) by (destruct D as [E|[r E]]; cbn in E; congruence). subst b. f_equal. apply IH. split.
        -- destruct D as [E|[r E]]; [left; congruence|right; exists r; cbn in E |- *; congruence].
        -- intros (x & y & E). apply B. exists (String a x), y. rewrite E. reflexivity.
      * intros <-. destruct (proj2 (IH (extract_consumer_name name)) eq_refl) as [D B]. split.
        -- destruct D as [E|[r E]]; [left; congruence|right; exists r; cbn in E |- *; congruence].
        -- intros (x & y & E). destruct x as [|c x]; cbn in E; [injection E as E _; contradiction|]. apply B. exists x, y. injection E as _ E. exact E.
Qed.
(* When no call is under way the counters are the bytes granted, refused and given back, for every label *)
Theorem c65_counters p l label : tasks (run p l) = [] ->
  allocated (run p l) label true = sum (under label granted_bytes) (snd (direct p 0 (calls l))) /\
  allocated (run p l) label false = sum (under label refused_bytes) (snd (direct p 0 (calls l))) /\
  freed (run p l) label = sum (under label freed_bytes) (snd (direct p 0 (calls l))).
Proof.
  intros T. rewrite c65_transparent. cbn [snd]. destruct (run_counted p l label) as (A & R & F). rewrite T in A, R, F. cbn in A, R, F. lia.
Qed.
Lemma over_under f labels : NoDup labels -> forall a, (forall x, In x a -> In (extract_consumer_name (consumer (fst x))) labels) ->
  over labels (fun n => sum (under n f) a) = sum f a.
Proof.
  intros ND a. induction a as [|x a IH]; intros C.
  - cbn. clear. induction labels as [|n r IHr]; cbn; [reflexivity|]. rewrite IHr. reflexivity.
  - cbn [sum]. rewrite <- (IH (fun y Y => C y (or_intror Y))).
    assert (E : over labels (fun n => under n f x) = f x).
    { specialize (C x (or_introl eq_refl)). clear IH. induction ND as [|n r NI ND IHr]; [destruct C|]. cbn [over]. unfold under at 1, labelled.
      destruct (String.eqb_spec (extract_consumer_name (consumer (fst x))) n) as [E|E].
      - assert (Z : over r (fun n => under n f x) = 0).
        { clear - E NI. induction r as [|m r IH]; cbn; [reflexivity|]. rewrite IH by (intros B; apply NI; right; exact B). unfold under, labelled. rewrite E.
          destruct (String.eqb_spec n m) as [->|N]; [exfalso; apply NI; left; reflexivity|reflexivity]. }
        rewrite Z. lia.
      - rewrite IHr; [lia|]. destruct C as [C|C]; [congruence|exact C]. }
    rewrite <- E at 1. clear. induction labels as [|n r IHr]; cbn; [reflexivity|]. rewrite IHr. lia.
Qed.
(* The bytes reserved are the bytes allocated less the bytes freed, summed over the labels, whenever no call is under way *)
Theorem c65_partial p l labels : tasks (run p l) = [] -> NoDup labels -> (forall c, In c (calls l) -> exists n, counted_under (consumer c) n /\ In n labels) ->
  used (run p l) = over labels (fun n => allocated (run p l) n true - freed (run p l) n).
Proof.
  intros T ND C. rewrite run_in_use.
  assert (I : forall x, In x (answers (run p l)) -> In (extract_consumer_name (consumer (fst x))) labels).
  { pose proof (c65_transparent p l) as D. intros x X. assert (Q : In (fst x) (calls l)).
    { clear - D X. assert (E : answers (run p l) = snd (direct p 0 (calls l))) by (rewrite D; reflexivity). rewrite E in X. clear E D. revert X. generalize 0.
      induction (calls l) as [|c m IH]; intros u X; cbn [direct] in X; [destruct X|]. destruct (inner_call p u c) as [u' ok]. specialize (IH u'). destruct (direct p u' m) as [u'' a].
      cbn [snd] in *. destruct X as [<-|X]; [left; reflexivity|right; exact (IH X)]. }
    destruct (C _ Q) as (n & U & N). apply c65_label in U. congruence. }
  rewrite <- (over_under granted_bytes labels ND _ I), <- (over_under freed_bytes labels ND _ I).
  clear ND I C. induction labels as [|n r IH]; cbn [over]; [reflexivity|]. rewrite <- IH. destruct (c65_counters p l n T) as (A & _ & F). rewrite A, F, c65_transparent. cbn [snd]. lia.
Qed.
(* While a call is under way they differ *)
Theorem c65_under_way_refuted p c : what c <> Shrink -> 0 < size c -> snd (inner_call p 0 c) = true ->
  used (run p [Begin c]) = size c /\ forall n ok, allocated (run p [Begin c]) n ok = 0 /\ freed (run p [Begin c]) n = 0.
Proof.
  intros W S G. unfold run. cbn [fold_left step]. unfold inner_call in *. destruct (what c); [|destruct p as [limit|]; [destruct (0 + size c <=? limit) eqn:E; [|discriminate]|]|congruence];
    cbn [used init] in *; rewrite ?E; cbn; auto.
Qed.

(* The gauge shows the reserved bytes if calls do not overlap *)
Lemma one_call p c s : tasks s = [] -> let s' := fold_left (step p) [Begin c; Continue 0; Continue 0; Continue 0] s in tasks s' = [] /\ gauge s' = used s'.
Proof.
  intros T. cbn [fold_left]. cbn [step]. destruct (inner_call p (used s) c) as [u ok]. rewrite T. cbn [app step nth_error tasks at_stage set_task firstn skipn used gauge allocated freed answers tcall granted].
  unfold count. cbn [tcall granted]. destruct (what c); split; reflexivity.
Qed.
Theorem c65_gauge_partial p l : gauge (run p (one_after_another l)) = used (run p (one_after_another l)) /\ tasks (run p (one_after_another l)) = [].
Proof.
  unfold run. assert (G : forall s, tasks s = [] -> gauge s = used s -> gauge (fold_left (step p) (one_after_another l) s) = used (fold_left (step p) (one_after_another l) s) /\ tasks (fold_left (step p) (one_after_another l) s) = []).
  { induction l as [|c l IH]; intros s T E; [auto|]. unfold one_after_another in *. cbn [flat_map]. rewrite fold_left_app. destruct (one_call p c s T) as [T' E']. exact (IH _ T' E'). }
  apply G; reflexivity.
Qed.
(* Two calls that overlap can leave it at a value that is not the reserved one, for good *)
Theorem c65_gauge_refuted p a b : what a = Grow -> what b = Grow -> 0 < size b ->
  exists l, calls l = [a; b] /\ tasks (run p l) = [] /\ used (run p l) = size a + size b /\ gauge (run p l) = size a.
Proof.
  intros A B S. exists [Begin a; Continue 0; Begin b; Continue 1; Continue 1; Continue 1; Continue 0; Continue 0].
  destruct a as [wa na za], b as [wb nb zb]. cbn [what size] in *. subst wa wb. split; [reflexivity|]. split; [reflexivity|]. split; reflexivity.
Qed.

(* ---- The hypotheses are met ---- *)
Open Scope string_scope.
Definition grow n z := {| what := Grow; consumer := n; size := z |}.
Definition try_grow n z := {| what := TryGrow; consumer := n; size := z |}.
Definition shrink n z := {| what := Shrink; consumer := n; size := z |}.
Definition sample : list call := [grow "Sort[0]" 8; try_grow "Sort[1]" 20; try_grow "Join" 4; shrink "Sort[0]" 5].
Example c65_example : let s := run (Greedy 16) (one_after_another sample) in
  tasks s = [] /\ used s = 7 /\ gauge s = 7 /\ allocated s "Sort" true = 8 /\ allocated s "Sort" false = 20 /\ freed s "Sort" = 5 /\ map snd (answers s) = [true; false; true; true] /\
  NoDup ["Sort"; "Join"] /\ (forall c, In c (calls (one_after_another sample)) -> exists n, counted_under (consumer c) n /\ In n ["Sort"; "Join"]).
Proof.
  split; [reflexivity|]. split; [reflexivity|]. split; [reflexivity|]. split; [reflexivity|]. split; [reflexivity|]. split; [reflexivity|]. split; [reflexivity|].
  split; [constructor; [intros [E|[]]; discriminate|constructor; [intros []|constructor]]|].
  intros c H. exists (extract_consumer_name (consumer c)). split; [apply c65_label; reflexivity|]. cbn in H. repeat destruct H as [<-|H]; cbn; auto.
Qed.
(* overlapping calls that have all finished *)
Example c65_example_overlap : tasks (run (Greedy 100) [Begin (grow "a" 8); Begin (grow "b" 1); Continue 1; Continue 0; Continue 0; Continue 1; Continue 1; Continue 0]) = [].
Proof. reflexivity. Qed.
Example c65_example_refuted : what (grow "a" 8) = Grow /\ 0 < size (grow "a" 8) /\ snd (inner_call (Greedy 16) 0 (grow "a" 8)) = true.
Proof. split; [reflexivity|]. split; [cbn; lia|reflexivity]. Qed.

Print Assumptions c65_transparent.
Print Assumptions c65_label.
Print Assumptions c65_counters.
Print Assumptions c65_partial.
Print Assumptions c65_under_way_refuted.
Print Assumptions c65_gauge_partial.
Print Assumptions c65_gauge_refuted.
