(** C106: the optimizer as it is configured keeps what its flags promise. *)
From Verif Require Import MetaModel MetaSpec MetaProofs MetaProps DupModel DupProps OptModel OptSpec OptProofs UnionModel FlatModel
  PassModel PassProofs OptRunModel OptRunSpec OptRunProofs.
Local Open Scope string_scope.
Local Open Scope list_scope.

(** Without flags the types are left alone. *)
Theorem C106_none : forall modules fuel include order counter ts,
  exec_optimizer modules fuel include order
    (Flags false false false false false false false false false false false false false false false false false false) counter ts = Some ts.
Proof. reflexivity. Qed.
Print Assumptions C106_none.

(** With any flags: every type that was there is there. *)
Theorem C106_none_lost : forall modules fuel include order f counter ts ts',
  exec_optimizer modules fuel include order f counter ts = Some ts' -> incl (map fst ts) (map fst ts').
Proof. exact none_lost. Qed.
Print Assumptions C106_none_lost.

(** What single passes establish still holds at the end, whatever other passes are run. *)
Theorem C106_enums : forall modules fuel include order f counter ts ts',
  exec_optimizer modules fuel include order f counter ts = Some ts' ->
  (f_empty_enum_variants f = true -> no_empty_variants ts') /\ (f_empty_enums f = true -> no_empty_enums ts').
Proof. intros. split; intros F; [eapply variants_gone|eapply enums_gone]; eassumption. Qed.
Print Assumptions C106_enums.

Theorem C106_unions : forall modules fuel include order f counter ts ts',
  exec_optimizer modules fuel include order f counter ts = Some ts' ->
  (f_empty_unions f = true -> no_empty_unions ts') /\ (f_duplicate_variants f = true -> no_repeated_members ts').
Proof. intros. split; intros F; [eapply unions_gone|eapply members_once]; eassumption. Qed.
Print Assumptions C106_unions.

(** Members of a union stand for different types.  Missing: runs that also remove unions
    with one member (below). *)
Theorem C106_members_partial : forall modules fuel include order f counter ts ts', NoDup (map fst ts) ->
  f_duplicate_variants f = true -> f_empty_unions f = false ->
  exec_optimizer modules fuel include order f counter ts = Some ts' -> no_equal_members ts'.
Proof. exact members_differ. Qed.
Print Assumptions C106_members_partial.

(** In the order in which the passes are run, the exception of C57 does not occur: the
    remembered type definitions are right at every point of the run. *)
Theorem C106_never_stale : forall modules fuel f include before after counter ts s, NoDup (map fst ts) ->
  passes_of f include = before ++ after -> run_passes modules fuel before (PState (opt_new ts) counter) = Some s ->
  forall m, o_typedefs (ps_opt s) = Some m -> forall i e, td_resolve m i = Some e <-> alias_end (o_types (ps_opt s)) i e.
Proof.
  intros modules fuel f include before after counter ts s ND E R m C. destruct (never_stale _ _ _ _ _ _ _ _ _ ND E R) as [_ K].
  unfold cache_ok in K. rewrite C in K. exact K.
Qed.
Print Assumptions C106_never_stale.

(** Three unions, each of them equal to the string as soon as the one before is. *)
Definition ex_members (l : list string) : mtype := mtype_new (VUnion (UnionMeta BaseNone (map (fun s => UType (ex_id s) None) l) no_constrains)).
Definition ex_tower : types :=
  [(ex_id "string", mtype_new (VBuildIn BString)); (ex_id "u1", ex_members ["string"]); (ex_id "u2", ex_members ["string"; "u1"]);
   (ex_id "u3", ex_members ["string"; "u2"])].
Definition ex_run (f : flags) (ts : types) : option types := exec_optimizer [] 100 "" (fun _ => []) f 0 ts.

Lemma ex_tower_nodup : NoDup (map fst ex_tower).
Proof. repeat (constructor; [cbn; intros X; repeat (destruct X as [X|X]; [discriminate X|]); exact X|]). constructor. Qed.

(** Refuted: the members of a union stand for different types.  Two rounds are not enough,
    with the default configuration: "u2" becomes an alias of "string" at the very end.
    Optimizing again therefore changes the types again. *)
Theorem C106_members_refuted : exists ts', NoDup (map fst ex_tower) /\ ex_run default_flags ex_tower = Some ts' /\
  ~ no_equal_members ts' /\ ex_run default_flags ts' <> Some ts'.
Proof.
  eexists. split; [exact ex_tower_nodup|]. split; [vm_compute; reflexivity|]. split.
  - intros H. specialize (H (ex_id "u3") (ex_members ["string"; "u2"]) (UnionMeta BaseNone [UType (ex_id "string") None; UType (ex_id "u2") None] no_constrains)
      [] (UType (ex_id "string") None) [] (UType (ex_id "u2") None) [] (ex_id "string")).
    assert (N : forall c, ~ plain_step
      [(ex_id "string", mtype_new (VBuildIn BString)); (ex_id "u1", ex_ref "string"); (ex_id "u2", ex_ref "string"); (ex_id "u3", ex_members ["string"; "u2"])]
      (ex_id "string") c).
    { intros c (ty & L & V). vm_compute in L. injection L as <-. discriminate V. }
    apply H.
    + right. right. right. left. reflexivity.
    + reflexivity.
    + reflexivity.
    + split; [constructor|exact N].
    + split; [|exact N]. econstructor; [|constructor]. exists (ex_ref "string"). split; reflexivity.
  - vm_compute. discriminate.
Qed.
Print Assumptions C106_members_refuted.

(** Refuted: with type definitions resolved, nothing uses an alias. *)
Definition with_typedefs : flags :=
  Flags true true true true false true false false false false false false true false false false false false.
Theorem C106_aliases_refuted : exists ts', ex_run with_typedefs ex_tower = Some ts' /\ ~ no_aliases_used ts'.
Proof.
  eexists. split; [vm_compute; reflexivity|]. intros H.
  apply (H (ex_id "u3") (ex_members ["string"; "u2"]) (UnionMeta BaseNone [UType (ex_id "string") None; UType (ex_id "u2") None] no_constrains)
    (UType (ex_id "u2") None) (ex_id "string")).
  - right. right. right. left. reflexivity.
  - reflexivity.
  - right. left. reflexivity.
  - exists (ex_ref "string"). split; reflexivity.
Qed.
Print Assumptions C106_aliases_refuted.

(** Refuted: with duplicates removed, no two types are equal.  Merging the cardinalities of
    choices comes later and makes two choices equal that differed in them. *)
Definition ex_choice_of (mx : nat) : mtype :=
  mtype_new (VChoice (GroupMeta false [ElementMeta (PIdent 1 (Named "e")) (EVType (ex_id "string") ModeElement) Qualified 0 1 (Bounded mx) None []])).
Definition ex_with (c : string) : mtype := mtype_new (VComplex (ComplexMeta BaseNone (Some (ex_id c)) 1 (Bounded 1) false false [])).
Definition ex_choices : types :=
  [(ex_id "string", mtype_new (VBuildIn BString)); (ex_id "c1", ex_choice_of 1); (ex_id "c2", ex_choice_of 2);
   (ex_id "t1", ex_with "c1"); (ex_id "t2", ex_with "c2")].
Definition with_duplicates : flags :=
  Flags true true true true false true false false false false false false true true true false false false.
Theorem C106_duplicates_refuted : exists ts', ex_run with_duplicates ex_choices = Some ts' /\ ~ no_duplicates ts'.
Proof.
  eexists. split; [vm_compute; reflexivity|]. intros H.
  destruct (H (ex_id "c1") (ex_id "c2") (ex_choice_of 1) (ex_choice_of 1)) as [[r E]|[r E]]; try discriminate E.
  - right. left. reflexivity.
  - right. right. left. reflexivity.
  - discriminate.
  - vm_compute. reflexivity.
Qed.
Print Assumptions C106_duplicates_refuted.

(** A run with every flag that ends, with an enumeration, a union and a sequence. *)
Definition all_flags : flags :=
  Flags true true true true true true true true true true true true true true true true true true.
Definition ex_enum (base : base_meta) (l : list string) : mtype :=
  mtype_new (VEnumeration (EnumMeta base (map (fun s => EVariant (PIdent 1 (Named s)) UseOptional None None [] None) l) no_constrains)).
Definition ex_all : types :=
  ex_tower ++ [(ex_id "empty", ex_enum (BaseRes (ex_id "string")) [""]); (ex_id "values", ex_enum BaseNone ["a"; ""]);
    (ex_id "s", ex_seq "u1"); (ex_id "t", ex_with "s")].
Example C106_case : exists ts', ex_run all_flags ex_all = Some ts' /\
  lookup (ex_id "values") ts' = Some (ex_enum BaseNone ["a"]) /\ lookup (ex_id "empty") ts' = Some (ex_ref "string") /\
  lookup (ex_id "u1") ts' = Some (ex_ref "string") /\ lookup (ex_id "s") ts' = Some (ex_seq "string").
Proof. eexists. split; [vm_compute; reflexivity|]. repeat split; vm_compute; reflexivity. Qed.
Example C106_case_members : exists ts', ex_run (Flags true true true false false true false false false false false false false false false false false false) ex_all = Some ts' /\
  lookup (ex_id "u3") ts' = Some (ex_members ["string"; "u2"]) /\ lookup (ex_id "u2") ts' = Some (ex_members ["string"; "u1"]).
Proof. eexists. split; [vm_compute; reflexivity|]. split; vm_compute; reflexivity. Qed.
