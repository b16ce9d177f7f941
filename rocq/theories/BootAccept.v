(* C112: settings that follow the documentation are accepted. Specification: BootSpec.v, model: BootModel.v. *)
From Coq Require Import Ascii String List Bool Arith NArith Lia.
Require Verif.ConfigModel.
From Verif Require Import BootModel BootSpec BootProps.
Import ListNotations.
Open Scope list_scope.
Open Scope string_scope.

Section Crate.
  Context {to_text : value -> option string} {to_number : value -> option N} {narrow : N -> N -> option N}.
  Notation means := (means to_text to_number).
  Definition readable {A} (r : reading) (f : value -> option A) : Prop := forall v x, means r v x -> exists a, f v = Some a.
  Lemma readable_text : readable RText to_text.
  Proof. intros v x M. inversion M; subst. eexists. eassumption. Qed.
  Lemma readable_access : readable RAccess (access to_text).
  Proof. intros v x M. unfold access. inversion M; subst; (match goal with E : to_text v = Some _ |- _ => rewrite E end); eexists; reflexivity. Qed.
  Lemma readable_number bits : takes narrow -> readable (RNumber bits) (number to_number narrow bits).
  Proof. intros T v x M. inversion M; subst. unfold number, bind. match goal with E : to_number v = Some _ |- _ => rewrite E end. rewrite T by assumption. eexists. reflexivity. Qed.
  Lemma readable_tag_text : readable RTagText tagged_text.
  Proof. intros v x M. inversion M; subst. eexists. reflexivity. Qed.
  Lemma readable_tag_flag : readable RTagFlag tagged_flag.
  Proof. intros v x M. inversion M; subst. eexists. reflexivity. Qed.
  Lemma readable_journal : readable RJournal journal_mode.
  Proof. intros v x M. inversion M; subst. match goal with I : In _ journals |- _ => cbn in I; repeat (destruct I as [I|I]; [injection I as <- <-; eexists; reflexivity|]); destruct I end. Qed.

  Definition fine_at (s : list (list string * value)) (p : list string) (r : reading) : Prop := forall v, setting s p = Some v -> exists x, means r v x.
  Lemma default_reads {A} s p r (f : value -> option A) d : readable r f -> fine_at s p r -> exists a, with_default s p f d = Some a.
  Proof. intros R F. unfold with_default. destruct (setting s p) as [v|] eqn:E; [|eexists; reflexivity]. destruct (F v E) as [x M]. exact (R v x M). Qed.
  Lemma optional_reads {A} s p r (f : value -> option A) : readable r f -> fine_at s p r -> exists a, optional s p f = Some a.
  Proof. intros R F. unfold optional. destruct (setting s p) as [v|] eqn:E; [|eexists; reflexivity]. destruct (F v E) as [x M]. destruct (R v x M) as [a ->]. eexists. reflexivity. Qed.
  Lemma required_reads {A} s p r (f : value -> option A) : readable r f -> fine_at s p r -> setting s p <> None -> exists a, required s p f = Some a.
  Proof. intros R F N. unfold required. destruct (setting s p) as [v|] eqn:E; [|contradiction]. destruct (F v E) as [x M]. exact (R v x M). Qed.
  Lemma struct_reads {A} s p (f : option A) : setting s p = None -> (exists a, f = Some a) -> exists a, struct s p f = Some a.
  Proof. intros N F. unfold struct. rewrite N. exact F. Qed.
  Lemma optional_struct_reads {A} s p (f : option A) : setting s p = None -> (section s p = true -> exists a, f = Some a) -> exists a, optional_struct s p f = Some a.
  Proof. intros N F. unfold optional_struct. destruct (section s p); [|eexists; reflexivity]. destruct (F eq_refl) as [a ->]. unfold struct. rewrite N. eexists. reflexivity. Qed.
  Lemma bind_reads {A B} (x : option A) (f : A -> option B) : (exists a, x = Some a) -> (forall a, exists b, f a = Some b) -> exists b, bind x f = Some b.
  Proof. intros [a ->] F. exact (F a). Qed.
  Lemma section_head s p : section s p = true -> exists e, In e s /\ match p with [] => True | k :: _ => hd "" (fst e) = k end.
  Proof.
    intros S. apply existsb_exists in S. destruct S as (e & I & B). exists e. split; [exact I|]. destruct p as [|k p]; [exact Logic.I|]. destruct (fst e) as [|k' q]; cbn [below] in B; [discriminate|]. apply andb_true_iff in B. destruct B as [B _]. apply String.eqb_eq in B. symmetry. exact B.
  Qed.

  Lemma address_reads s p host port d : takes narrow -> fine_at s (under p host) RText -> fine_at s (under p port) (RNumber 16) -> exists a, read_address to_text to_number narrow s p host port d = Some a.
  Proof.
    intros T H P. unfold read_address. apply bind_reads; [exact (default_reads _ _ _ _ _ readable_text H)|]. intros h. apply bind_reads; [exact (default_reads _ _ _ _ _ (readable_number 16 T) P)|]. intros n. eexists. reflexivity.
  Qed.
  Ltac reads T := repeat (apply bind_reads; [first [eapply default_reads; [first [exact readable_text | exact readable_access | apply (readable_number _ T) | exact readable_tag_text | exact readable_tag_flag | exact readable_journal]|assumption]
    | eapply optional_reads; [first [exact readable_text | apply (readable_number _ T) | exact readable_tag_text]|assumption]
    | eapply required_reads; [exact readable_tag_text|assumption|assumption]]|intros ?]).

  Theorem c112_accepted : forall f env, takes narrow -> documented to_text to_number (f ++ environment env) ->
    exists c, load to_text to_number narrow f env = match ConfigModel.validate_config (checked c) with inl _ => Some c | inr _ => None end.
  Proof.
    intros f env T D. unfold load. set (s := (f ++ environment env)%list) in *. clearbody s. destruct D as (P & G & N & C & O & S).
    enough (E : exists c, deserialize to_text to_number narrow s = Some c) by (destruct E as [c E]; exists c; rewrite E; reflexivity).
    assert (P' : Forall (fun r => fine_at s (rpath r) (rreading r)) plain_rows) by (apply Forall_forall; intros r I v V; apply setting_says in V; exact (P r v I V)). clear P.
    assert (S' : Forall (fun p => setting s p = None) (sections ++ [["frontend"]; ["runtime"]; ["misc"]; ["misc"; "sync_conf"]])) by (apply Forall_forall; intros p I; apply setting_none, S; exact I). clear S.
    unfold plain_rows, addresses, number_row in P'. cbn [app] in P'. unfold sections in S'. cbn [app] in S'.
    repeat (match goal with H : Forall _ (_ :: _) |- _ => inversion_clear H; cbn [rpath rreading] in * end).
    assert (CA : section s ["catalog"] = true -> exists a, read_catalog s = Some a).
    { intros X. apply section_head in X. destruct (C X) as (t & I & Y). apply setting_says in Y.
      assert (G' : Forall (fun e => setting s (fst (fst e)) = Some (VText (snd (fst e))) -> fine_at s (rpath (snd e)) (rreading (snd e))) tagged_rows) by (apply Forall_forall; intros [[p u] r] J Z v V; cbn [fst snd] in *; apply setting_says in Z; apply setting_says in V; exact (G p u r v J Z V)).
      assert (N' : Forall (fun e => setting s (fst (fst e)) = Some (VText (snd (fst e))) -> setting s (snd e) <> None) needed) by (apply Forall_forall; intros [[p u] r] J Z V; cbn [fst snd] in *; apply setting_says in Z; destruct (N p u r J Z) as [v W]; apply setting_says in W; congruence).
      unfold tagged_rows, tag_text, tag_flag in G'. unfold needed in N'. repeat (match goal with H : Forall _ (_ :: _) |- _ => inversion_clear H; cbn [fst snd rpath rreading] in * end). unfold read_catalog, required at 1. rewrite Y. cbn [tagged_text bind].
      destruct I as [<-|[<-|[<-|[]]]]; cbn [String.eqb Ascii.eqb Bool.eqb]; repeat (match goal with H : setting s ["catalog"; "type"] = Some (VText _) -> _ |- _ => first [specialize (H Y) | clear H] end); reads T; eexists; reflexivity. }
    assert (OB : section s ["object_store"] = true -> exists a, read_store s = Some a).
    { intros X. apply section_head in X. destruct (O X) as (t & I & Y). apply setting_says in Y.
      assert (G' : Forall (fun e => setting s (fst (fst e)) = Some (VText (snd (fst e))) -> fine_at s (rpath (snd e)) (rreading (snd e))) tagged_rows) by (apply Forall_forall; intros [[p u] r] J Z v V; cbn [fst snd] in *; apply setting_says in Z; apply setting_says in V; exact (G p u r v J Z V)).
      assert (N' : Forall (fun e => setting s (fst (fst e)) = Some (VText (snd (fst e))) -> setting s (snd e) <> None) needed) by (apply Forall_forall; intros [[p u] r] J Z V; cbn [fst snd] in *; apply setting_says in Z; destruct (N p u r J Z) as [v W]; apply setting_says in W; congruence).
      unfold tagged_rows, tag_text, tag_flag in G'. unfold needed in N'. repeat (match goal with H : Forall _ (_ :: _) |- _ => inversion_clear H; cbn [fst snd rpath rreading] in * end). unfold read_store, under. cbn [app]. unfold required at 1. rewrite Y. cbn [tagged_text bind].
      destruct I as [<-|[<-|[<-|[<-|[]]]]]; cbn [String.eqb Ascii.eqb Bool.eqb]; repeat (match goal with H : setting s ["object_store"; "type"] = Some (VText _) -> _ |- _ => first [specialize (H Y) | clear H] end); reads T; eexists; reflexivity. }
    unfold deserialize. apply bind_reads; [apply optional_struct_reads; assumption|intros ?]. apply bind_reads; [apply optional_struct_reads; assumption|intros ?].
    apply bind_reads; [apply struct_reads; [assumption|eexists; reflexivity]|intros ?].
    apply bind_reads; [apply optional_struct_reads; [assumption|intros _; apply address_reads; assumption]|intros ?]. apply bind_reads; [apply optional_struct_reads; [assumption|intros _; apply address_reads; assumption]|intros ?].
    apply bind_reads; [apply optional_struct_reads; [assumption|intros _]|intros ?].
    { unfold read_http. apply bind_reads; [apply address_reads; assumption|intros ?]. cbn [under app]. reads T. eexists; reflexivity. }
    apply bind_reads; [apply struct_reads; [assumption|eexists; reflexivity]|intros ?]. reads T. apply bind_reads; [apply struct_reads; [assumption|]|intros ?; eexists; reflexivity].
    unfold read_misc. reads T. apply bind_reads; [apply optional_struct_reads; [assumption|intros _; apply address_reads; assumption]|intros ?].
    apply bind_reads; [apply optional_struct_reads; [assumption|intros _]|intros ?]; [unfold read_cache; cbn [under app]; reads T; eexists; reflexivity|].
    apply bind_reads; [apply struct_reads; [assumption|]|intros ?; eexists; reflexivity]. unfold read_sync. cbn [under app]. reads T. eexists; reflexivity.
  Qed.
End Crate.
Print Assumptions c112_accepted.
Example c112_accepted_example : takes strict /\ documented ex_text ex_number (default_file ++ environment []).
Proof.
  split; [intros bits n L; unfold strict; apply N.ltb_lt in L; rewrite L; reflexivity|]. unfold documented.
  split. { assert (A : Forall (fun r => forall v, setting (default_file ++ environment []) (rpath r) = Some v -> exists x, means ex_text ex_number (rreading r) v x) plain_rows).
    { repeat apply Forall_cons; try apply Forall_nil; cbn [rpath rreading number_row]; intros v E; vm_compute in E; try discriminate; injection E as <-;
        first [eexists; constructor; reflexivity | eexists; eapply MNumber; [reflexivity|reflexivity] | eexists; apply MAny; reflexivity | eexists; apply MOff; reflexivity]. }
    intros r v I S. apply setting_says in S. rewrite Forall_forall in A. exact (A r I v S). }
  split. { assert (A : Forall (fun e => forall v, setting (default_file ++ environment []) (rpath (snd e)) = Some v -> exists x, means ex_text ex_number (rreading (snd e)) v x) tagged_rows).
    { repeat apply Forall_cons; try apply Forall_nil; cbn [snd rpath rreading tag_text tag_flag]; intros v E; vm_compute in E; try discriminate; injection E as <-; eexists; constructor. }
    intros p t r v I _ S. apply setting_says in S. rewrite Forall_forall in A. exact (A (p, t, r) I v S). }
  split. { assert (A : Forall (fun e => setting (default_file ++ environment []) (fst (fst e)) = Some (VText (snd (fst e))) -> exists v, setting (default_file ++ environment []) (snd e) = Some v) needed).
    { repeat apply Forall_cons; try apply Forall_nil; cbn [fst snd]; intros E; vm_compute in E; try discriminate; eexists; vm_compute; reflexivity. }
    intros p t q I S. apply setting_says in S. rewrite Forall_forall in A. destruct (A (p, t, q) I S) as [v V]. exists v. apply setting_says. exact V. }
  split. { intros _. exists "sqlite". split; [cbn; tauto|]. apply setting_says. vm_compute. reflexivity. }
  split. { intros _. exists "local". split; [cbn; tauto|]. apply setting_says. vm_compute. reflexivity. }
  assert (A : Forall (fun p => setting (default_file ++ environment []) p = None) (sections ++ [["frontend"]; ["runtime"]; ["misc"]; ["misc"; "sync_conf"]])) by (repeat apply Forall_cons; try apply Forall_nil; vm_compute; reflexivity).
  intros p I. apply setting_none. rewrite Forall_forall in A. exact (A p I).
Qed.
