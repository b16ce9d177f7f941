(* C109 (statements entered together), C110 (lines of the command line), C111 (statements over the Postgres protocol).
   Specification: CliSpec.v, model: CliModel.v. *)
From Coq Require Import Ascii String List Bool Arith Lia.
From Verif Require Import CliModel CliSpec.
Import ListNotations.
Open Scope list_scope.

Section Engine.
  Context {R O : Type}.
  Notation db := (db R). Notation statement := (statement R O). Notation plan := (plan R O).

  (* Files are numbered; what is on the disk or in a table was numbered before, each number names one file, and tables have their files *)
  Definition wf (s : db) : Prop :=
    Forall (fun e => fst e < next s) (disk s) /\ Forall (fun e : string * table => Forall (fun i => i < next s) (files (snd e))) (catalog s).
  Lemma find_in {A} (l : list (string * A)) t v : find l t = Some v -> In (t, v) l.
  Proof.
    induction l as [|[t' w] l IH]; cbn [find]; [discriminate|]. destruct (String.eqb t' t) eqn:Q; [|intros E; right; apply IH; exact E].
    apply String.eqb_eq in Q. intros E. injection E as ->. left. rewrite Q. reflexivity.
  Qed.
  Lemma wf_step s (st : statement) s1 p : wf s -> make_plan s st = Some (s1, p) -> wf s1.
  Proof.
    intros [D C]. assert (up : forall n, n < next s -> n < S (next s)) by lia.
    assert (D' : Forall (fun e : nat * (nat * list R) => fst e < S (next s)) (disk s)) by (eapply Forall_impl; [|exact D]; cbn; intros; lia).
    assert (Fl : forall l, Forall (fun i => i < next s) l -> Forall (fun i => i < S (next s)) l) by (intros l; apply Forall_impl; intros; lia).
    assert (C' : Forall (fun e : string * table => Forall (fun i => i < S (next s)) (files (snd e))) (catalog s)) by (eapply Forall_impl; [|exact C]; intros e; apply Fl).
    assert (FF : forall t v, find (catalog s) t = Some v -> Forall (fun i => i < next s) (files v)).
    { intros t v E. apply find_in in E. rewrite Forall_forall in C. exact (C _ E). }
    assert (SetF : forall n l t v, Forall (fun e : string * table => Forall (fun i => i < n) (files (snd e))) l -> Forall (fun i => i < n) (files v) ->
              Forall (fun e : string * table => Forall (fun i => i < n) (files (snd e))) (set l t v)).
    { intros n l t v Hl Hv. unfold set. apply Forall_forall. intros e I. apply in_map_iff in I. destruct I as (x & <- & I). rewrite Forall_forall in Hl. destruct (String.eqb (fst x) t); [exact Hv|exact (Hl x I)]. }
    destruct st as [t f|t|t rows|t|t|t|]; cbn [make_plan].
    - destruct (find (catalog s) t); [|discriminate]. intros E. injection E as <- <-. split; assumption.
    - destruct (find (catalog s) t); [discriminate|]. intros E. injection E as <- <-. split; cbn [disk catalog next]; [exact D'|]. apply Forall_app. split; [exact C'|]. constructor; [constructor|constructor].
    - destruct (find (catalog s) t) as [v|] eqn:F; [|discriminate]. intros E. injection E as <- <-. split; cbn [disk catalog next].
      + apply Forall_app. split; [exact D'|]. constructor; [cbn; lia|constructor].
      + apply SetF; [exact C'|]. cbn [files]. apply Forall_app. split; [apply Fl, (FF t v F)|]. constructor; [lia|constructor].
    - destruct (find (catalog s) t) as [v|] eqn:F; [|discriminate]. intros E. injection E as <- <-. split; cbn [disk catalog next]; [exact D|]. apply SetF; [exact C|constructor].
    - destruct (find (catalog s) t) as [v|] eqn:F; [|discriminate]. intros E. injection E as <- <-. split; cbn [disk catalog next]; [exact D|].
      unfold remove. apply Forall_forall. intros e I. apply filter_In in I. rewrite Forall_forall in C. apply C, I.
    - destruct (find (catalog s) t) as [v|] eqn:F; [|discriminate]. intros E. injection E as <- <-. split; cbn [disk catalog next]; [|exact C].
      apply Forall_forall. intros e I. apply filter_In in I. rewrite Forall_forall in D. apply D, I.
    - intros E. injection E as <- <-. split; cbn [disk catalog next]; [|exact C]. apply Forall_forall. intros e I. apply filter_In in I. rewrite Forall_forall in D. apply D, I.
  Qed.
  Lemma reachable_wf s : @reachable R O s -> wf s.
  Proof. induction 1 as [|s st s1 p _ IH E]; [split; constructor|exact (wf_step s st s1 p IH E)]. Qed.

  (* Without VACUUM files only come, with new numbers *)
  Definition grows (s s1 : db) : Prop := next s <= next s1 /\ forall i, i < next s -> file (disk s1) i = file (disk s) i.
  Lemma file_app (d : list (nat * (nat * list R))) i j o r : i <> j -> file (d ++ [(j, (o, r))]) i = file d i.
  Proof.
    intros N. induction d as [|[k [o' r']] d IH]; cbn [app file]; [|rewrite IH; reflexivity]. destruct (Nat.eqb j i) eqn:Q; [apply Nat.eqb_eq in Q; congruence|reflexivity].
  Qed.
  Lemma grows_step s (st : statement) s1 p : is_vacuum st = false -> make_plan s st = Some (s1, p) -> grows s s1.
  Proof.
    intros NV. destruct st as [t f|t|t rows|t|t|t|]; try discriminate; cbn [make_plan]; destruct (find (catalog s) t) as [v|]; try discriminate; intros E; injection E as <- <-; split; cbn [next disk]; try lia; try reflexivity.
    intros i L. apply file_app. lia.
  Qed.
  Lemma grows_trans a b c : grows a b -> grows b c -> grows a c.
  Proof. intros [N1 F1] [N2 F2]. split; [lia|]. intros i L. rewrite F2 by lia. apply F1. exact L. Qed.
  Lemma plans_grow (l : list statement) : forall s, forallb (fun st => negb (is_vacuum st)) l = true -> grows s (fst (make_plans s l)).
  Proof.
    induction l as [|st l IH]; intros s NV; cbn [make_plans]; [split; [cbn; lia|reflexivity]|]. cbn [forallb] in NV. apply andb_true_iff in NV. destruct NV as [V NV]. apply negb_true_iff in V.
    destruct (make_plan s st) as [[s1 p]|] eqn:E; [|split; [cbn; lia|reflexivity]]. specialize (IH s1 NV). destruct (make_plans s1 l) as [s2 ps]. cbn [fst] in *.
    exact (grows_trans _ _ _ (grows_step s st s1 p V E) IH).
  Qed.
  Lemma read_same (d d1 : list (nat * (nat * list R))) fs : Forall (fun i => file d1 i = file d i) fs -> read d1 fs = read d fs.
  Proof. induction 1 as [|i fs E _ IH]; [reflexivity|]. cbn [read]. rewrite E, IH. reflexivity. Qed.
  Lemma run_later s (st : statement) s1 p s2 : wf s -> make_plan s st = Some (s1, p) -> grows s1 s2 -> run_plan s2 p = run_plan s1 p.
  Proof.
    intros W E [_ F]. pose proof (wf_step s st s1 p W E) as [_ C1]. destruct st as [t f|t|t rows|t|t|t|]; cbn [make_plan] in E; try (destruct (find (catalog s) t) as [v|] eqn:L; try discriminate); injection E as <- <-; try reflexivity.
    cbn [run_plan]. rewrite (read_same (disk s) (disk s2)); [reflexivity|]. apply find_in in L. rewrite Forall_forall in C1. specialize (C1 _ L). eapply Forall_impl; [|exact C1]. cbn. intros i Li. apply F. exact Li.
  Qed.

  Lemma one_result s (l : list statement) r r' : one_by_one s l r -> one_by_one s l r' -> r = r'.
  Proof.
    assert (G : forall x, one_by_one s l x -> x = run_one_off s l).
    { intros x H. induction H as [s|s st l E|s st l s1 p E F|s st l s1 p o x E F H IH]; cbn [run_one_off]; [reflexivity|rewrite E; reflexivity|rewrite E, F; reflexivity|rewrite E, F, <- IH; reflexivity]. }
    intros H H'. rewrite (G r H), (G r' H'). reflexivity.
  Qed.

  Lemma together l : forall s, wf s -> forallb (fun st => negb (@is_vacuum R O st)) l = true ->
    (forall r, one_by_one s l r -> ok r = true -> exec_and_print s l = r) /\ (ok (exec_and_print s l) = true -> one_by_one s l (exec_and_print s l)).
  Proof.
    induction l as [|st l IH]; intros s W NV.
    - split; [intros r H _; inversion H; subst; reflexivity|intros _; constructor].
    - cbn [forallb] in NV. apply andb_true_iff in NV. destruct NV as [V NV]. apply negb_true_iff in V. unfold exec_and_print. cbn [make_plans].
      destruct (make_plan s st) as [[s1 p]|] eqn:E.
      + destruct (IH s1 (wf_step s st s1 p W E) NV) as [IH1 IH2]. pose proof (plans_grow l s1 NV) as G. unfold exec_and_print in IH1, IH2. destruct (make_plans s1 l) as [s2 [ps|]] eqn:M; cbn [fst option_map] in *.
        * cbn [run_plans]. rewrite (run_later s st s1 p s2 W E G). destruct (run_plans s2 ps) as [os b] eqn:Q. split.
          -- intros r H K. inversion H; subst; cbn [ok] in K; try discriminate. match goal with A : make_plan s st = Some _ |- _ => rewrite E in A; injection A as <- <- end.
             match goal with A : run_plan s1 p = Some _ |- _ => rewrite A end. match goal with A : one_by_one s1 l ?x |- _ => pose proof (IH1 x A K) as X; rewrite <- X end. reflexivity.
          -- destruct (run_plan s1 p) as [o|] eqn:F; [|discriminate]. cbn [ok]. intros ->. exact (Went s st l s1 p o {| after := s2; printed := os; ok := true |} E F (IH2 eq_refl)).
        * split; [|discriminate]. intros r H K. inversion H; subst; cbn [ok] in K; try discriminate. match goal with A : make_plan s st = Some _ |- _ => rewrite E in A; injection A as <- <- end.
          match goal with A : one_by_one s1 l ?x |- _ => pose proof (IH1 x A K) as X; rewrite <- X in K end. discriminate.
      + split; [|discriminate]. intros r H K. inversion H; subst; cbn [ok] in K; try discriminate. congruence.
  Qed.

  (* C109: without VACUUM, statements that all work behave on the command line as one by one *)
  Theorem c109_partial : forall s (l : list statement), @reachable R O s -> forallb (fun st => negb (is_vacuum st)) l = true -> forall r,
    ok r = true -> (exec_and_print s l = r <-> one_by_one s l r).
  Proof.
    intros s l Re NV r K. destruct (together l s (reachable_wf s Re) NV) as [A B]. split; [intros <-; exact (B K)|intros H; exact (A r H K)].
  Qed.
  (* One-off commands always do *)
  Theorem c109_one_off : forall s (l : list statement) r, run_one_off s l = r <-> one_by_one s l r.
  Proof.
    assert (G : forall (l : list statement) s, one_by_one s l (run_one_off s l)).
    { induction l as [|st l IH]; intros s; cbn [run_one_off]; [constructor|]. destruct (make_plan s st) as [[s1 p]|] eqn:E; [|constructor; exact E].
      destruct (run_plan s1 p) as [o|] eqn:F; [|exact (NoRun s st l s1 p E F)]. exact (Went s st l s1 p o _ E F (IH s1)). }
    intros s l r. split; [intros <-; apply G|intros H; exact (one_result s l _ _ (G l s) H)].
  Qed.
  (* A statement that cannot be planned suppresses what the statements before it print *)
  Theorem c109_silent_refuted : forall s (l : list statement) st rest r, one_by_one s l r -> ok r = true -> make_plan (after r) st = None ->
    one_by_one s (l ++ st :: rest) {| after := after r; printed := printed r; ok := false |} /\ printed (exec_and_print s (l ++ st :: rest)) = [] /\ after (exec_and_print s (l ++ st :: rest)) = after r.
  Proof.
    intros s l st rest r H. induction H as [s|s st' l E|s st' l s1 p E F|s st' l s1 p o r E F H IH]; cbn [after printed ok app]; intros K N; try discriminate.
    - split; [constructor; exact N|]. unfold exec_and_print. cbn [make_plans]. rewrite N. split; reflexivity.
    - destruct (IH K N) as (A & B & Cc). split; [exact (Went s st' (l ++ st :: rest) s1 p o _ E F A)|]. unfold exec_and_print in *. cbn [make_plans]. rewrite E.
      assert (M : make_plans s1 (l ++ st :: rest) = (after r, None)).
      { clear -H K N. induction H as [s|s st' l E|s st' l s1 p E F|s st' l s1 p o r E F H IH]; cbn [after ok app] in *; try discriminate; cbn [make_plans].
        - rewrite N. reflexivity.
        - rewrite E, (IH K N). reflexivity. }
      rewrite M. cbn. split; reflexivity.
  Qed.
  (* A query that fails does not prevent the effect of the statements behind it *)
  Theorem c109_effect_refuted : forall s t f v rows, find (catalog s) t = Some v -> read (disk s) (files v) = Some rows -> f rows = None ->
    one_by_one s [@Select R O t f; Drop t] {| after := s; printed := []; ok := false |} /\
    find (catalog (after (exec_and_print s [@Select R O t f; Drop t]))) t = None /\ ok (exec_and_print s [@Select R O t f; Drop t]) = false.
  Proof.
    intros s t f v rows L Rd F. split.
    - apply (NoRun s _ _ s (Scan (files v) f)); [cbn [make_plan]; rewrite L; reflexivity|]. cbn [run_plan]. rewrite Rd, F. reflexivity.
    - assert (P1 : make_plan s (@Select R O t f) = Some (s, Scan (files v) f)) by (cbn [make_plan]; rewrite L; reflexivity).
      assert (P2 : make_plan s (@Drop R O t) = Some ({| catalog := remove (catalog s) t; dropped := dropped s ++ [uuid v]; disk := disk s; next := next s |}, Dummy)) by (cbn [make_plan]; rewrite L; reflexivity).
      unfold exec_and_print. cbn [make_plans]. rewrite P1. cbn [make_plans]. rewrite P2. cbn [option_map run_plans run_plan disk]. rewrite Rd, F. cbn [option_map after ok catalog]. split; [|reflexivity].
      clear. induction (catalog s) as [|[t' w] l IH]; [reflexivity|]. cbn [remove filter fst]. destruct (String.eqb t' t) eqn:Q; cbn [negb]; [exact IH|]. cbn [find]. rewrite Q. exact IH.
  Qed.
  (* A VACUUM removes what a query before it is going to read *)
  Lemma read_gone (d : list (nat * (nat * list R))) i fs : file d i = None -> In i fs -> read d fs = None.
  Proof. intros N. induction fs as [|j fs IH]; intros I; [contradiction|]. cbn [read]. destruct I as [->|I]; [rewrite N; reflexivity|]. rewrite (IH I). destruct (file d j); reflexivity. Qed.
  Lemma find_set l t (v w : table) : find l t = Some v -> find (set l t w) t = Some w.
  Proof.
    induction l as [|[t' x] l IH]; cbn [find set map fst]; [discriminate|]. destruct (String.eqb t' t) eqn:Q; cbn [find].
    - rewrite String.eqb_refl. reflexivity.
    - rewrite Q. exact IH.
  Qed.
  Theorem c109_vacuum_refuted : forall s t f v rows o i, find (catalog s) t = Some v -> read (disk s) (files v) = Some rows -> f rows = Some o ->
    In i (files v) -> (forall e, In e (disk s) -> fst e = i -> fst (snd e) = uuid v) ->
    exists s1, one_by_one s [@Select R O t f; Delete t; Vacuum t] {| after := s1; printed := [o]; ok := true |} /\
               exec_and_print s [@Select R O t f; Delete t; Vacuum t] = {| after := s1; printed := []; ok := false |}.
  Proof.
    intros s t f v rows o i L Rd F I Own. set (w := {| uuid := uuid v; files := [] |}).
    set (s0 := {| catalog := set (catalog s) t w; dropped := dropped s; disk := disk s; next := next s |}).
    set (s1 := {| catalog := set (catalog s) t w; dropped := dropped s; disk := filter (fun e => negb (Nat.eqb (fst (snd e)) (uuid v) && negb (mem (fst e) []))) (disk s); next := next s |}).
    assert (P1 : make_plan s (@Select R O t f) = Some (s, Scan (files v) f)) by (cbn [make_plan]; rewrite L; reflexivity).
    assert (P2 : make_plan s (@Delete R O t) = Some (s0, Dummy)) by (cbn [make_plan]; rewrite L; reflexivity).
    assert (P3 : make_plan s0 (@Vacuum R O t) = Some (s1, Dummy)) by (cbn [make_plan s0 catalog]; rewrite (find_set _ _ _ w L); reflexivity).
    exists s1. split.
    - apply (Went s _ _ s _ (Some o) {| after := s1; printed := []; ok := true |} P1); [cbn [run_plan]; rewrite Rd, F; reflexivity|].
      apply (Went s _ _ s0 _ None {| after := s1; printed := []; ok := true |} P2 eq_refl). apply (Went s0 _ _ s1 _ None {| after := s1; printed := []; ok := true |} P3 eq_refl). constructor.
    - unfold exec_and_print. cbn [make_plans]. rewrite P1. cbn [make_plans]. rewrite P2. cbn [make_plans]. rewrite P3. cbn [option_map run_plans run_plan].
      rewrite (read_gone (disk s1) i); [reflexivity| |exact I]. cbn [s1 disk]. clear -Own. induction (disk s) as [|[j [u r]] d IH]; [reflexivity|]. cbn [filter fst snd].
      destruct (Nat.eqb u (uuid v)) eqn:U; cbn [mem existsb negb andb].
      + apply IH. intros e I. apply Own. right. exact I.
      + cbn [file]. destruct (Nat.eqb j i) eqn:Q; [|apply IH; intros e I; apply Own; right; exact I]. apply Nat.eqb_eq in Q. apply Nat.eqb_neq in U. exfalso. apply U. exact (Own _ (or_introl eq_refl) Q).
  Qed.

  (* ---- C111 ---- *)
  Notation pg := (pg R O).
  (* A simple query does what the statement does *)
  Theorem c111_simple : forall (s : pg) st r, one_by_one (engine s) [st] r ->
    engine (fst (answer s (Query st))) = after r /\
    snd (answer s (Query st)) = if ok r then Rows (match printed r with [o] => Some o | _ => None end) else PgError.
  Proof.
    intros s st r H. assert (Pr : prepare (engine s) st = false -> make_plan (engine s) st = None).
    { destruct st as [t f|t|t rows|t|t|t|]; cbn [prepare make_plan]; try discriminate; destruct (find (catalog (engine s)) t); congruence. }
    cbn [answer]. inversion H as [|? ? ? E|? ? ? s1 p E F|? ? ? s1 p o r' E F H']; subst; cbn [after printed ok].
    - rewrite E. destruct (prepare (engine s) st); split; reflexivity.
    - destruct (prepare (engine s) st) eqn:P; [|rewrite (Pr eq_refl) in E; discriminate]. rewrite E, F. split; reflexivity.
    - destruct (prepare (engine s) st) eqn:P; [|rewrite (Pr eq_refl) in E; discriminate]. rewrite E, F. inversion H'; subst. cbn [engine fst snd after printed ok]. split; [reflexivity|]. destruct o; reflexivity.
  Qed.
  (* Parse, Bind and Execute right after one another do as well *)
  Theorem c111_extended_partial : forall (s : pg) st n p r, one_by_one (engine s) [st] r -> ok r = true ->
    engine (fst (converse s [Parse n st; Bind p n; Execute p])) = after r /\
    snd (converse s [Parse n st; Bind p n; Execute p]) = [Done; Done; Rows (match printed r with [o] => Some o | _ => None end)].
  Proof.
    intros s st n p r H K. assert (Pr : prepare (engine s) st = false -> make_plan (engine s) st = None).
    { destruct st as [t f|t|t rows|t|t|t|]; cbn [prepare make_plan]; try discriminate; destruct (find (catalog (engine s)) t); congruence. }
    inversion H as [|? ? ? E|? ? ? s1 pl E F|? ? ? s1 pl o r' E F H']; subst; cbn [ok] in K; try discriminate. inversion H'; subst.
    cbn [converse answer]. destruct (prepare (engine s) st) eqn:P; [|rewrite (Pr eq_refl) in E; discriminate]. unfold put. cbn [statements find]. rewrite String.eqb_refl. cbn [engine]. rewrite E. cbn [portals find]. rewrite String.eqb_refl. cbn [engine].
    rewrite F. cbn [fst snd engine after printed]. split; [reflexivity|]. destruct o; reflexivity.
  Qed.
  (* A statement that writes has its effect when it is bound, even if it is never executed, and none when it is executed *)
  Theorem c111_bound_refuted : forall (s : pg) t rows n p v, find (catalog (engine s)) t = Some v ->
    disk (engine (fst (converse s [Parse n (Insert t rows); Bind p n]))) = disk (engine s) ++ [(next (engine s), (uuid v, rows))] /\
    forall k, engine (fst (converse s ([Parse n (Insert t rows); Bind p n] ++ repeat (Execute p) k))) = engine (fst (converse s [Parse n (Insert t rows); Bind p n])).
  Proof.
    intros s t rows n p v L. set (s2 := fst (converse s [Parse n (Insert t rows); Bind p n])).
    assert (E : converse s [Parse n (Insert t rows); Bind p n] = (s2, [Done; Done]) /\ find (portals s2) p = Some Dummy /\ disk (engine s2) = disk (engine s) ++ [(next (engine s), (uuid v, rows))]).
    { subst s2. cbn [converse answer prepare]. rewrite L. unfold put. cbn [statements find]. rewrite String.eqb_refl. cbn [engine make_plan]. rewrite L. cbn [fst portals engine disk find]. rewrite String.eqb_refl. repeat apply conj; reflexivity. }
    destruct E as (E & Fp & D). split; [exact D|]. intros k.
    assert (A : forall l m (x : pg), converse x (l ++ m) = let '(y, a) := converse x l in let '(z, b) := converse y m in (z, a ++ b)).
    { induction l as [|e l IH]; intros m x; [cbn; destruct (converse x m); reflexivity|]. cbn [app converse]. destruct (answer x e) as [x1 r1]. rewrite IH. destruct (converse x1 l) as [y a]. destruct (converse y m). reflexivity. }
    rewrite A, E. assert (B : forall k, exists b, converse s2 (repeat (Execute p) k) = (s2, b)).
    { induction k0 as [|k0 (b & IH)]; [exists []; reflexivity|]. cbn [repeat converse answer]. rewrite Fp. cbn [run_plan]. rewrite IH. eexists. reflexivity. }
    destruct (B k) as (b & ->). reflexivity.
  Qed.
End Engine.
Print Assumptions c109_partial.
Print Assumptions c109_one_off.
Print Assumptions c109_silent_refuted.
Print Assumptions c109_effect_refuted.
Print Assumptions c109_vacuum_refuted.
Print Assumptions c111_simple.
Print Assumptions c111_extended_partial.
Print Assumptions c111_bound_refuted.

Definition ex_state : db nat := after (run_one_off (O := list nat) (empty_db nat) [Create "t"; Insert "t" [1; 2]; Insert "t" [3]]).
Definition all (l : list nat) : option (list nat) := Some l.
Definition fails (l : list nat) : option (list nat) := match l with [] => Some [] | _ => None end.
Example c109_example : @reachable nat (list nat) ex_state /\ contents ex_state "t" = Some [1; 2; 3] /\
  exec_and_print ex_state [Select "t" all; Delete "t"; Select "t" all] = {| after := after (exec_and_print ex_state [@Delete nat (list nat) "t"]); printed := [[1; 2; 3]; []]; ok := true |} /\
  printed (exec_and_print ex_state [Select "t" all; Delete "t"; Vacuum "t"]) = [] /\ printed (run_one_off ex_state [Select "t" all; Delete "t"; Vacuum "t"]) = [[1; 2; 3]] /\
  contents (after (exec_and_print ex_state [Select "t" fails; Drop "t"])) "t" = None /\ contents (after (run_one_off ex_state [Select "t" fails; Drop "t"])) "t" = Some [1; 2; 3].
Proof.
  split; [|repeat apply conj; vm_compute; reflexivity].
  eapply (Next _ (Insert "t" [3]) _ Dummy); [eapply (Next _ (Insert "t" [1; 2]) _ Dummy); [eapply (Next _ (Create "t") _ Dummy); [apply Start|vm_compute; reflexivity]|vm_compute; reflexivity]|vm_compute; reflexivity].
Qed.
Definition ex_pg : pg nat (list nat) := {| engine := ex_state; statements := []; portals := [] |}.
Example c111_example : snd (converse ex_pg [Query (Select "t" all); Parse "i" (Insert "t" [4]); Bind "p" "i"; Query (Select "t" all); Execute "p"; Execute "p"; Query (Select "t" all); Query (Select "u" all)]) =
  [Rows (Some [1; 2; 3]); Done; Done; Rows (Some [1; 2; 3; 4]); Rows None; Rows None; Rows (Some [1; 2; 3; 4]); PgError].
Proof. reflexivity. Qed.

(* ---- C110 ---- *)
Open Scope char_scope.
Lemma blank_white c : blank c = white c.
Proof. destruct c as [[] [] [] [] [] [] [] []]; reflexivity. Qed.
Notation plain := (fun c : ascii => white c = false) (only parsing).
Lemma teqb_iff a b : teqb a b = true <-> a = b.
Proof.
  revert b. induction a as [|x a IH]; intros [|y b]; cbn [teqb]; try (split; [discriminate|congruence]); [split; reflexivity|]. rewrite andb_true_iff, IH, Ascii.eqb_eq. split; [intros [-> ->]; reflexivity|intros E; injection E as -> ->; split; reflexivity].
Qed.
Lemma words_blank b t : Forall (fun c => white c = true) b -> words (b ++ t) = words t.
Proof. induction 1 as [|c b B _ IH]; [reflexivity|]. cbn [app words]. rewrite blank_white, B. exact IH. Qed.
Lemma words_word w t : w <> [] -> Forall (fun c => white c = false) w -> (t = [] \/ exists c r, t = c :: r /\ white c = true) -> words (w ++ t) = w :: words t.
Proof.
  induction w as [|c w IH]; intros N P T; [contradiction|]. inversion_clear P as [|? ? Pc Pw]. destruct w as [|d w].
  - cbn [app words]. rewrite (blank_white c), Pc. destruct T as [->|(x & r & -> & B)]; [reflexivity|]. rewrite (blank_white x), B. reflexivity.
  - assert (N' : d :: w <> []) by discriminate. specialize (IH N' Pw T). inversion_clear Pw as [|? ? Pd _]. change ((c :: d :: w) ++ t) with (c :: (d :: w) ++ t). cbn [words]. rewrite (blank_white c), Pc. cbn [app]. rewrite (blank_white d), Pd. cbn [app] in IH. rewrite IH. reflexivity.
Qed.
(* Lines with one word and lines with two words; blanks between and behind them do not matter *)
Lemma one_word w b : w <> [] -> Forall (fun c => white c = false) w -> Forall (fun c => white c = true) b -> joined (words (w ++ b)) = w.
Proof.
  intros N P B. rewrite words_word; [|exact N|exact P|destruct b as [|c b]; [left; reflexivity|right; exists c, b; inversion B; split; [reflexivity|assumption]]].
  rewrite <- (app_nil_r b), words_blank by exact B. reflexivity.
Qed.
Lemma two_words w v b c : w <> [] -> v <> [] -> b <> [] -> Forall (fun c => white c = false) w -> Forall (fun c => white c = false) v -> Forall (fun c => white c = true) b -> Forall (fun c => white c = true) c ->
  joined (words (w ++ b ++ v ++ c)) = w ++ " " :: v.
Proof.
  intros Nw Nv Nb Pw Pv Bb Bc. rewrite words_word; [|exact Nw|exact Pw|destruct b as [|x b]; [contradiction|right; exists x, (b ++ v ++ c); inversion Bb; split; [reflexivity|assumption]]].
  rewrite words_blank by exact Bb. rewrite words_word; [|exact Nv|exact Pv|destruct c as [|x c]; [left; reflexivity|right; exists x, c; inversion Bc; split; [reflexivity|assumption]]].
  rewrite <- (app_nil_r c), words_blank by exact Bc. reflexivity.
Qed.
(* \d with a name of one word describes that table, whatever blanks are around it; the other commands do what the help says *)
Theorem c110_describe : forall name b c, name <> [] -> Forall (fun c => white c = false) name -> b <> [] -> Forall (fun c => white c = true) b -> Forall (fun c => white c = true) c ->
  line_action (s_ "\d" ++ b ++ name ++ c) = Run (s_ "SHOW COLUMNS FROM " ++ name).
Proof.
  intros name b c N P Nb B C. unfold line_action. cbn [s_ list_ascii_of_string app starts_with]. rewrite Ascii.eqb_refl.
  change ("\" :: "d" :: b ++ name ++ c) with (["\"; "d"] ++ b ++ name ++ c). rewrite two_words; try assumption; [|discriminate|repeat constructor].
  reflexivity.
Qed.
Print Assumptions c110_describe.
Theorem c110_commands : forall b, Forall (fun c => white c = true) b ->
  line_action (s_ "\q" ++ b) = Leave /\ line_action (s_ "\quit" ++ b) = Leave /\ line_action (s_ "\?" ++ b) = PrintHelp /\ line_action (s_ "\d" ++ b) = Run (s_ "SHOW TABLES").
Proof.
  intros b B. assert (G : forall w, w <> [] -> Forall (fun c => white c = false) ("\" :: w) -> joined (words (("\" :: w) ++ b)) = "\" :: w) by (intros w N P; apply one_word; [discriminate|exact P|exact B]).
  unfold line_action. repeat apply conj; cbn [s_ list_ascii_of_string app starts_with]; rewrite Ascii.eqb_refl.
  - pose proof (G ["q"] ltac:(discriminate) ltac:(repeat constructor)) as X. cbn [app] in X. rewrite X. reflexivity.
  - pose proof (G ["q"; "u"; "i"; "t"] ltac:(discriminate) ltac:(repeat constructor)) as X. cbn [app] in X. rewrite X. reflexivity.
  - pose proof (G ["?"] ltac:(discriminate) ltac:(repeat constructor)) as X. cbn [app] in X. rewrite X. reflexivity.
  - pose proof (G ["d"] ltac:(discriminate) ltac:(repeat constructor)) as X. cbn [app] in X. rewrite X. reflexivity.
Qed.
Print Assumptions c110_commands.
(* Every command that the help lists is understood as that command *)
Theorem c110_help : forall line c, In (line, c) all_commands -> match c with DescribeTable _ => exists n, parse_command (tl (joined (words line))) = Some (DescribeTable n) | _ => parse_command (tl (joined (words line))) = Some c end.
Proof. intros line c I. cbn [all_commands In] in I. repeat (destruct I as [I|I]; [injection I as <- <-; vm_compute; try (eexists); reflexivity|]). contradiction. Qed.
Print Assumptions c110_help.
(* Nothing else is a command: other words are not, and only \d takes a name *)
Theorem c110_unknown : forall w b, Forall (fun c => white c = false) ("\" :: w) -> (b = [] \/ exists c r, b = c :: r /\ white c = true) ->
  ~ In w [s_ "d"] -> (words b = [] -> ~ In w [s_ "q"; s_ "quit"; s_ "?"]) -> line_action (("\" :: w) ++ b) = Complain.
Proof.
  intros w b P B Nd Ns. unfold line_action. cbn [app starts_with]. rewrite Ascii.eqb_refl. change ("\" :: w ++ b) with (("\" :: w) ++ b). rewrite words_word by (discriminate || assumption).
  assert (NB : ~ In " " w) by (inversion_clear P as [|? ? _ Pw]; intros I; rewrite Forall_forall in Pw; specialize (Pw _ I); discriminate).
  assert (T : forall x, ~ In w x -> forall y, In y x -> teqb w y = false) by (intros x N y I; destruct (teqb w y) eqn:Q; [apply teqb_iff in Q; subst; contradiction|reflexivity]).
  assert (SN : split_once " " w = None).
  { clear -NB. induction w as [|x w IH]; [reflexivity|]. cbn [split_once]. destruct (Ascii.eqb x " ") eqn:Q; [apply Ascii.eqb_eq in Q; exfalso; apply NB; left; exact Q|]. rewrite IH by (intros I; apply NB; right; exact I). reflexivity. }
  assert (SS : forall r, split_once " " (w ++ " " :: r) = Some (w, r)).
  { intros r. clear -NB. induction w as [|x w IH]; [reflexivity|]. cbn [app split_once]. destruct (Ascii.eqb x " ") eqn:Q; [apply Ascii.eqb_eq in Q; exfalso; apply NB; left; exact Q|]. rewrite IH by (intros I; apply NB; right; exact I). reflexivity. }
  destruct (words b) as [|v vs] eqn:W.
  - cbn [joined tl]. unfold parse_command. rewrite SN. specialize (Ns eq_refl). rewrite (T _ Ns (s_ "q")), (T _ Ns (s_ "quit")), (T _ Nd (s_ "d")), (T _ Ns (s_ "?")) by (cbn; tauto). reflexivity.
  - change (joined (("\" :: w) :: v :: vs)) with ("\" :: (w ++ " " :: joined (v :: vs))). cbn [tl]. unfold parse_command. rewrite SS, (T _ Nd (s_ "d")) by (cbn; tauto). reflexivity.
Qed.
Print Assumptions c110_unknown.
(* A line that is no command is run as it is *)
Theorem c110_statement : forall line, starts_with "\" line = false -> line_action line = Run line.
Proof. intros line S. unfold line_action. rewrite S. reflexivity. Qed.
Print Assumptions c110_statement.
(* The name can contain any statements: they are run as well *)
Lemma parts_app t r : fold_left quote_step t Outside = Outside -> ~ In ";" t -> parts Outside (t ++ ";" :: r) = t :: parts Outside r.
Proof.
  assert (G : forall t q, fold_left quote_step t q = Outside -> ~ In ";" t -> parts q (t ++ ";" :: r) = t :: parts Outside r).
  { induction t0 as [|c t0 IH]; intros q F N; [cbn in F; subst q; reflexivity|]. cbn [fold_left] in F. cbn [app parts]. rewrite (IH (quote_step q c) F) by (intros I; apply N; right; exact I).
    destruct q; [|reflexivity]. destruct (Ascii.eqb c ";") eqn:Q; [|reflexivity]. apply Ascii.eqb_eq in Q. exfalso. apply N. left. exact Q. }
  intros F N. apply G; assumption.
Qed.
Theorem c110_injected_refuted : forall name w, name <> [] -> Forall (fun c => white c = false) name -> ~ In ";" name -> fold_left quote_step name Outside = Outside ->
  Forall (fun c => white c = false) w ->
  exists sql, line_action (s_ "\d " ++ name ++ ";" :: w) = Run sql /\ parts Outside sql = (s_ "SHOW COLUMNS FROM " ++ name) :: parts Outside w.
Proof.
  intros name w N P S F W. exists (s_ "SHOW COLUMNS FROM " ++ name ++ ";" :: w). split.
  - pose proof (c110_describe (name ++ ";" :: w) [" "] []) as X. rewrite app_nil_r in X. apply X; [destruct name; discriminate| |discriminate|repeat constructor|constructor].
    apply Forall_app. split; [exact P|constructor; [reflexivity|exact W]].
  - rewrite app_assoc. apply parts_app.
    + rewrite fold_left_app. exact F.
    + intros I. apply in_app_or in I. destruct I as [I|I]; [|exact (S I)]. cbn in I. repeat (destruct I as [I|I]; [discriminate|]). contradiction.
Qed.
Print Assumptions c110_injected_refuted.
(* Two blanks inside of a quoted name become one: another table is described *)
Theorem c110_blanks_refuted : forall v w, v <> [] -> w <> [] -> Forall (fun c => white c = false) v -> Forall (fun c => white c = false) w ->
  line_action (s_ "\d " ++ """" :: v ++ " " :: " " :: w ++ [""""]) = Run (s_ "SHOW COLUMNS FROM " ++ """" :: v ++ " " :: w ++ [""""]).
Proof.
  intros v w Nv Nw Pv Pw. unfold line_action. cbn [s_ list_ascii_of_string app starts_with]. rewrite Ascii.eqb_refl.
  assert (E : joined (words ("\" :: "d" :: " " :: """" :: v ++ " " :: " " :: w ++ [""""])) = "\" :: "d" :: " " :: """" :: v ++ " " :: w ++ [""""]).
  { change ("\" :: "d" :: " " :: """" :: v ++ " " :: " " :: w ++ [""""]) with (["\"; "d"] ++ [" "] ++ ("""" :: v) ++ [" "; " "] ++ (w ++ [""""])).
    rewrite words_word; [|discriminate|repeat constructor|right; eexists; eexists; split; [reflexivity|reflexivity]]. rewrite words_blank by repeat constructor.
    rewrite words_word; [|discriminate|constructor; [reflexivity|exact Pv]|right; eexists; eexists; split; [reflexivity|reflexivity]]. rewrite words_blank by repeat constructor.
    rewrite <- (app_nil_r (w ++ [""""])). rewrite words_word; [|destruct w; discriminate|apply Forall_app; split; [exact Pw|repeat constructor]|left; reflexivity].
    cbn [words joined app]. rewrite app_nil_r. reflexivity. }
  rewrite E. reflexivity.
Qed.
Print Assumptions c110_blanks_refuted.
(* Complete statements are run; what does not end with a semicolon is not, unless it is a command *)
Lemma trim_end_blank t b : Forall (fun c => white c = true) b -> trim_end (t ++ b) = trim_end t.
Proof.
  intros B. unfold trim_end. rewrite rev_app_distr. f_equal. assert (B' : Forall (fun c => white c = true) (rev b)) by (apply Forall_rev; exact B). induction B' as [|c l Bc _ IH]; [reflexivity|]. cbn [app trim_start]. rewrite blank_white, Bc. exact IH.
Qed.
Lemma trim_end_solid t c : white c = false -> trim_end (t ++ [c]) = t ++ [c].
Proof. intros B. unfold trim_end. rewrite rev_app_distr. cbn [rev app trim_start]. rewrite blank_white, B. cbn [rev]. rewrite rev_involutive. reflexivity. Qed.
Theorem c110_complete : forall t, complete t -> valid_input t = true.
Proof.
  intros t (body & rest & -> & B & _). unfold valid_input. change (";" :: rest) with ([";"] ++ rest). rewrite app_assoc, trim_end_blank by exact B. rewrite trim_end_solid by reflexivity.
  unfold ends_with. rewrite rev_app_distr. reflexivity.
Qed.
Print Assumptions c110_complete.
Theorem c110_incomplete_partial : forall body c rest, Forall (fun c => white c = true) rest -> white c = false -> c <> ";" -> starts_with "\" (body ++ [c]) = false -> valid_input (body ++ c :: rest) = false.
Proof.
  intros body c rest B Bc N S. unfold valid_input. change (c :: rest) with ([c] ++ rest). rewrite app_assoc, trim_end_blank by exact B. rewrite trim_end_solid by exact Bc.
  unfold ends_with. rewrite rev_app_distr. cbn [rev app]. rewrite S, orb_false_r. apply Ascii.eqb_neq. exact N.
Qed.
Print Assumptions c110_incomplete_partial.
(* Commands do not need one *)
Theorem c110_at_once : forall t, valid_input ("\" :: t) = true.
Proof.
  intros t. unfold valid_input. assert (E : trim_end ("\" :: t) = "\" :: trim_end t).
  { unfold trim_end. cbn [rev]. assert (G : forall l, trim_start (l ++ ["\"]) = trim_start l ++ ["\"]) by (induction l as [|c l IH]; [reflexivity|]; cbn [app trim_start]; destruct (blank c); [exact IH|reflexivity]).
    rewrite G, rev_app_distr. reflexivity. }
  rewrite E. cbn [starts_with]. rewrite Ascii.eqb_refl, orb_true_r. reflexivity.
Qed.
Print Assumptions c110_at_once.
(* A line that ends with a semicolon inside of a text is run too early *)
Theorem c110_quoted_refuted : forall body q, fold_left quote_step body Outside = Within q -> valid_input (body ++ [";"]) = true /\ ~ complete (body ++ [";"]).
Proof.
  intros body q F. split.
  - unfold valid_input. rewrite trim_end_solid by reflexivity. unfold ends_with. rewrite rev_app_distr. reflexivity.
  - intros (b & r & E & B & O). destruct r as [|x r] using rev_ind.
    + apply app_inj_tail in E. destruct E as [-> _]. congruence.
    + change (b ++ ";" :: r ++ [x]) with (b ++ (";" :: r) ++ [x]) in E. rewrite app_assoc in E. apply app_inj_tail in E. destruct E as [_ <-]. apply Forall_app in B. destruct B as [_ B]. inversion B. discriminate.
Qed.
Print Assumptions c110_quoted_refuted.
Example c110_example : line_action (s_ "\d   orders  ") = Run (s_ "SHOW COLUMNS FROM orders") /\ line_action (s_ "\d a;DELETE/**/FROM/**/a") = Run (s_ "SHOW COLUMNS FROM a;DELETE/**/FROM/**/a") /\
  parts Outside (s_ "SHOW COLUMNS FROM a;DELETE/**/FROM/**/a") = [s_ "SHOW COLUMNS FROM a"; s_ "DELETE/**/FROM/**/a"] /\ line_action (s_ "\x") = Complain /\
  complete (s_ "SELECT 'a;b'; ") /\ fold_left quote_step (s_ "SELECT 'a") Outside = Within "'".
Proof.
  split; [reflexivity|split; [reflexivity|split; [reflexivity|split; [reflexivity|split; [|reflexivity]]]]]. exists (s_ "SELECT 'a;b'"), [" "]. split; [reflexivity|]. split; [repeat constructor|reflexivity].
Qed.
