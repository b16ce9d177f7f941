(* Properties C32 - C34 and C69: commits. The model is in LakeModel.v (src/object_store/wrapped.rs, src/context/iceberg.rs), what must
   hold in LakeSpec.v. *)
From Coq Require Import List Arith Bool Lia.
From Verif Require Import LakeModel LakeSpec LakeProofs.
Import ListNotations.

(* C32. Every store configuration but a local one with disable_hardlinks: whatever any number of writers do in any order, a
   committed entry is never replaced, each version is committed by at most one of the attempts that reported success, what the log
   holds is what that attempt wrote, and the log has no gaps. *)
Theorem c32_commits_partial : forall (D : Type) cfg (es more : list (lev D)), cfg <> Local true ->
  let st := lrun cfg lempty es in
  (forall v d, log st v = Some d -> log (lrun cfg st more) v = Some d) /\
  NoDup (map (fun x => snd (fst x)) (done st)) /\
  (forall v d, log st v = Some d <-> exists w, In (w, v, d) (done st)) /\
  (forall v, log st v <> None -> forall u, u <= v -> log st u <> None).
Proof.
  intros D cfg es more Hc st. pose proof (linv_run cfg Hc es lempty (@linv_init D)) as [I1 I2 I3 I4 I5]. fold st in I1, I2, I3, I4, I5.
  split; [intros v d; apply log_stable; exact Hc|]. split; [exact I3|]. split; [|exact I5].
  intros v d. split; [apply I2|]. intros [w H]. apply (I1 w v d H).
Qed.
Print Assumptions c32_commits_partial.
(* the calls themselves: for which configurations they create and never replace *)
Theorem c32_create_calls_partial : forall (D : Type) cfg (c : @create_call D),
  cfg <> Local true -> (cfg = AmazonS3 -> is_put c \/ exists from to, c = CopyNew from to) -> creates_only (call_store cfg) c.
Proof.
  intros D cfg c Hc Hs. destruct c as [p d|from to|from to].
  - apply put_creates. exact Hc.
  - intros s. pose proof (inner_copy_creates D s from to) as P. destruct cfg as [[|]| | |]; cbn; try exact P; [congruence|auto].
  - intros s. pose proof (inner_rename_creates D s from to) as P. destruct cfg as [[|]| | |]; cbn; try exact P; [congruence|].
    destruct (Hs eq_refl) as [[]|(f & t & X)]. discriminate.
Qed.
Print Assumptions c32_create_calls_partial.
(* With disable_hardlinks two writers can both commit version 0, and the second replaces the entry of the first. *)
Theorem c32_commits_refuted : exists es : list (lev nat),
  let st := lrun (Local true) lempty es in
  In (1, 0, 10) (done st) /\ In (2, 0, 20) (done st) /\ log st 0 = Some 20.
Proof. exists [LCommit 1 10; LCommit 2 20]. cbn. auto. Qed.
Print Assumptions c32_commits_refuted.
(* rename_if_not_exists on S3, and all three calls with disable_hardlinks, replace what is there and report success *)
Theorem c32_create_calls_refuted : forall D (a b : D), a <> b ->
  ~ creates_only (call_store AmazonS3) (@RenameNew D 0 1) /\ ~ creates_only (call_store (Local true)) (@RenameNew D 0 1) /\
  ~ creates_only (call_store (Local true)) (@CopyNew D 0 1) /\ ~ creates_only (call_store (Local true)) (PutNew 1 a).
Proof.
  intros D a b N. set (s := fun p => if Nat.eqb p 0 then Some a else Some b : option D).
  repeat split; intros H; specialize (H s); cbn in H; destruct H; discriminate.
Qed.
Print Assumptions c32_create_calls_refuted.
Example c32_case : forall cfg, cfg <> Local true ->
  let st := lrun cfg lempty [LCommit 1 10; LCommit 2 20; LLook 2 0; LCommit 2 21; LLook 1 0; LCommit 1 11] in
  log st 0 = Some 10 /\ log st 1 = Some 21 /\ log st 2 = None /\ map fst (done st) = [(2, 1); (1, 0)].
Proof. intros [[|]| | |] H; [congruence| | | |]; cbn; auto. Qed.

(* C33. Inserts into an Iceberg table, any number at once, each stopping anywhere. A version is never overwritten; *)
Theorem c33_versions_kept : forall sch st es v m, metas st v = Some m -> metas (irun sch st es) v = Some m.
Proof. intros sch st es v m. apply metas_stable. Qed.
Print Assumptions c33_versions_kept.
(* each version begins with the contents of the earlier ones and has their schema; *)
Theorem c33_versions_grow : forall sch st es v v' m m', well_formed st ->
  metas (irun sch st es) v = Some m -> metas (irun sch st es) v' = Some m' -> v <= v' ->
  schema m' = schema m /\ exists l, contents m' = contents m ++ l.
Proof.
  intros sch st es v v' m m' W H H' L. pose proof (iinv_run sch es st (iinv_init sch st W)) as I.
  replace v' with (v + (v' - v)) in H' by lia. apply (chain_prefix sch _ I _ _ _ _ H H').
Qed.
Print Assumptions c33_versions_grow.
(* an insert that reports success is in the version that the hint points to, then and ever after, exactly once. *)
Theorem c33_successful_inserts_stay : forall sch st es more w v, well_formed st ->
  inserts (irun sch st es) w = Succeeded v ->
  exists h m, hint (irun sch (irun sch st es) more) = Some h /\ metas (irun sch (irun sch st es) more) h = Some m /\
    v <= h /\ In w (contents m) /\ NoDup (contents m).
Proof.
  intros sch st es more w v W H. pose proof (iinv_run sch es st (iinv_init sch st W)) as I.
  pose proof (iinv_run sch more _ I) as I'. pose proof (pc_succeeded_stays sch more _ _ _ H) as H'.
  destruct (ii_done sch _ I' w v H') as ((h & Eh & L) & m & Em & Hin).
  destruct (metas (irun sch (irun sch st es) more) h) as [m'|] eqn:Em'; [|exfalso; apply (ii_hint sch _ I' h Eh h (le_n h) Em')].
  exists h, m'. split; [exact Eh|]. split; [exact Em'|]. split; [exact L|].
  assert (F : IFit sch (irun sch (irun sch st es) more)) by (apply ifit_run; [exact I|apply ifit_run; [apply iinv_init, W|apply ifit_init, W]]).
  split; [|apply (F _ _ Em')].
  replace h with (v + (h - v)) in Em' by lia. destruct (chain_prefix sch _ I' _ _ _ _ Em Em') as (_ & l & ->).
  apply in_or_app. left. exact Hin.
Qed.
Print Assumptions c33_successful_inserts_stay.
(* The hint never goes back, and a version after it is never one that a successful insert wrote. *)
Theorem c33_hint_monotone : forall sch st es more h, well_formed st -> hint (irun sch st es) = Some h ->
  exists h', hint (irun sch (irun sch st es) more) = Some h' /\ h <= h'.
Proof.
  intros sch st es more h W H. apply (hint_mono sch more _ h); [|exact H]. apply iinv_run, iinv_init, W.
Qed.
Print Assumptions c33_hint_monotone.
(* Two inserts that began from the same version cannot both succeed: successful inserts have different versions. *)
Theorem c33_one_per_version : forall sch st es w w' v, well_formed st ->
  inserts (irun sch st es) w = Succeeded v -> inserts (irun sch st es) w' = Succeeded v -> w = w'.
Proof. intros sch st es w w' v W. apply one_per_version. exact W. Qed.
Print Assumptions c33_one_per_version.
Definition s1 : nat -> list field := fun _ => [{| required := true; ftype := 1 |}; {| required := false; ftype := 2 |}].
Example c33_case : well_formed iempty /\
  let st := irun s1 iempty [IHint 1; IBase 1; IMeta 1; IHint 2; ISetHint 1; IBase 2; IMeta 2; IHint 3; IHint 4; IBase 3; IBase 4; IMeta 4; IMeta 3; ISetHint 4] in
  inserts st 1 = Succeeded 0 /\ inserts st 2 = Failed /\ inserts st 3 = Failed /\ inserts st 4 = Succeeded 1 /\
  option_map contents (metas st 1) = Some [1; 4] /\ hint st = Some 1.
Proof. split; [repeat split; try reflexivity; discriminate|]. cbn. auto 10. Qed.

(* C34. A server that stops after an insert has written its version and before it has set the hint (or whose request to set it
   fails) blocks the table: from then on no insert succeeds, whatever happens. This is so for every table and every insert. *)
Theorem c34_crash_blocks_refuted : forall sch st w, well_formed st ->
  match hint st with Some h => forall m, metas st h = Some m -> is_schema_aligned (sch w) (schema m) = true | None => True end ->
  let crashed := irun sch st [IHint w; IBase w; IMeta w; IStop w] in
  (forall w', w' <> w -> inserts crashed w' = Idle) /\
  forall more w' v, inserts (irun sch crashed more) w' <> Succeeded v.
Proof.
  intros sch st w W Ha crashed. destruct (crash_stuck sch st w W Ha) as [S P]. fold crashed in S, P. split.
  - intros w' N. rewrite P. destruct (Nat.eqb_spec w' w); [contradiction|reflexivity].
  - intros more w' v H. assert (I : IInv sch crashed) by (apply iinv_run, iinv_init, W).
    destruct (stuck_run sch more crashed _ I S) as [_ X]. apply X in H. rewrite P in H. destruct (Nat.eqb w' w); discriminate.
Qed.
Print Assumptions c34_crash_blocks_refuted.
(* Stops at any other points do no harm: when the inserts before have ended, a further one with a fitting schema succeeds. *)
Theorem c34_crash_partial : forall sch st es w, well_formed st -> stops_harmless sch st es ->
  let st' := irun sch st es in
  (forall w' v, inserts st' w' <> MetaWritten v) -> inserts st' w = Idle ->
  match hint st' with Some h => forall m, metas st' h = Some m -> is_schema_aligned (sch w) (schema m) = true | None => True end ->
  exists v, inserts (irun sch st' [IHint w; IBase w; IMeta w; ISetHint w]) w = Succeeded v.
Proof.
  intros sch st es w W Hs st' Hq Hi Ha. exists (newv (hint st')).
  assert (I : IInv sch st') by (apply iinv_run, iinv_init, W).
  apply solo_succeeds; auto.
  destruct (metas st' (newv (hint st'))) eqn:E; [|reflexivity]. exfalso.
  assert (O : IOwn st').
  { apply iown_run; [apply iinv_init, W| |exact Hs]. destruct W as (W1 & W2 & W3 & W4). intros H. exfalso.
    destruct (hint st) as [h|]; cbn in H; [apply W3 in H; lia|rewrite W3 in H; congruence]. }
  destruct (O ltac:(congruence)) as [w' Hw']. apply (Hq w' _ Hw').
Qed.
Print Assumptions c34_crash_partial.
Example c34_case : well_formed iempty /\ stops_harmless s1 iempty [IHint 1; IHint 2; IBase 2; IBase 1; IMeta 1; ISetHint 1; IStop 2] /\
  let st := irun s1 iempty [IHint 1; IHint 2; IBase 2; IBase 1; IMeta 1; ISetHint 1; IStop 2] in
  (forall w v, inserts st w <> MetaWritten v) /\ inserts st 3 = Idle /\
  option_map (fun m => is_schema_aligned (s1 3) (schema m)) (metas st 0) = Some true.
Proof.
  split; [repeat split; try reflexivity; discriminate|]. split; [repeat split; try discriminate|].
  split; [|split; reflexivity]. intros w v. destruct w as [|[|[|w]]]; discriminate.
Qed.

(* C69. The schema check of an insert lets rows through exactly if every row of the new schema fits the table's schema column by
   column, and every insert in a table has passed it against that table's schema. *)
Theorem c69_schema_check : forall new old, is_schema_aligned new old = true <-> (forall r, row_fits new r -> row_fits old r).
Proof.
  intros new old. unfold is_schema_aligned. destruct (Nat.eqb_spec (length old) (length new)) as [E|E]; cbn [negb].
  - split; [intros H r; apply fields_ok_fit; assumption|]. intros H. destruct (fields_ok old new) eqn:F; [reflexivity|].
    destruct (fields_not_ok old new E F) as (r & R1 & R2). exfalso. apply R2, H, R1.
  - split; [discriminate|]. intros H. exfalso.
    assert (T : row_fits new (map (fun f => Some (ftype f)) new)) by (clear; induction new; constructor; auto).
    apply H in T. apply E. rewrite <- (map_length (fun f => Some (ftype f)) new). clear - T. unfold row_fits in T. induction T; cbn; congruence.
Qed.
Print Assumptions c69_schema_check.
Theorem c69_inserts_fit : forall sch st es v m w r, well_formed st ->
  metas (irun sch st es) v = Some m -> In w (contents m) -> row_fits (sch w) r -> row_fits (schema m) r.
Proof.
  intros sch st es v m w r W H Hin. apply c69_schema_check.
  apply (ifit_run sch es st (iinv_init sch st W) (ifit_init sch st W) v m H). exact Hin.
Qed.
Print Assumptions c69_inserts_fit.
Example c69_case : is_schema_aligned [{| required := true; ftype := 1 |}] [{| required := false; ftype := 1 |}] = true /\
  is_schema_aligned [{| required := false; ftype := 1 |}] [{| required := true; ftype := 1 |}] = false.
Proof. split; reflexivity. Qed.
