(** C57, C65, C66: sequences of passes, and the passes over dynamic types. *)
From Verif Require Import MetaModel MetaSpec MetaProofs MetaProps DupModel DupProps OptModel OptSpec OptProofs UnionModel FlatModel
  PassModel PassSpec PassProofs PassDynProofs.
Local Open Scope string_scope.
Local Open Scope list_scope.

(** Whatever passes have been run on a set of types, in whatever order: the type
    definitions the optimizer remembers lead every name to the type it stands for now.
    The exception is [replace_xs_any_type], run while [xs:anyType] is an alias. *)
Theorem C57_never_stale_partial : forall modules fuel ts counter passes s, NoDup (map fst ts) ->
  (forall before include after s0, passes = before ++ PReplaceAny include :: after ->
     run_passes modules fuel before (PState (opt_new ts) counter) = Some s0 ->
     forall c, ~ plain_step (o_types (ps_opt s0)) (any_type_ident modules) c) ->
  run_passes modules fuel passes (PState (opt_new ts) counter) = Some s ->
  NoDup (map fst (o_types (ps_opt s))) /\
  forall m, o_typedefs (ps_opt s) = Some m ->
    forall i e, td_resolve m i = Some e <-> alias_end (o_types (ps_opt s)) i e.
Proof.
  intros modules fuel ts counter passes s ND NA R.
  destruct (passes_fine modules fuel passes (PState (opt_new ts) counter) s) as [N C]; [|exact NA|exact R|].
  - split; [exact ND|exact Logic.I].
  - split; [exact N|]. intros m E. unfold cache_ok in C. rewrite E in C. exact C.
Qed.
Print Assumptions C57_never_stale_partial.

Definition ex_modules : list (nat * option string) := [(0, Some "http://example.org/"); (2, Some xs_namespace)].
Definition ex_any : tident := any_type_ident ex_modules.
Definition ex_empty : mtype := mtype_new (VComplex (ComplexMeta BaseNone None 1 (Bounded 1) false false [])).
Definition ex_any_types : types := [(ex_id "a", ex_empty); (ex_any, ex_empty); (ex_id "s", ex_seq "a")].

Example C57_case : exists s, run_passes ex_modules 100
    [PReplaceAny "any"; PDuplicates; PResolve; PEmptyUnions; PMergeEnums; PResolve]
    (PState (opt_new [(ex_id "a", ex_empty); (ex_id "b", ex_empty); (ex_any, ex_empty); (ex_id "s", ex_seq "b")]) 0) = Some s /\
  o_typedefs (ps_opt s) <> None /\ lookup (ex_id "s") (o_types (ps_opt s)) = Some (ex_seq "a") /\
  lookup (ex_id "b") (o_types (ps_opt s)) = Some (ex_ref "a").
Proof. eexists. split; [vm_compute; reflexivity|]. split; [discriminate|]. split; reflexivity. Qed.

(** Removing duplicates makes [xs:anyType] an alias; the next pass remembers this; the
    type is replaced; and the optimizer goes on to send its users to the duplicate. *)
Theorem C57_replace_any_refuted : exists ts s m, NoDup (map fst ts) /\
  run_passes ex_modules 100 [PDuplicates; PResolve; PReplaceAny "any"] (PState (opt_new ts) 0) = Some s /\
  o_typedefs (ps_opt s) = Some m /\ td_resolve m ex_any = Some (ex_id "a") /\
  (forall c, ~ plain_step (o_types (ps_opt s)) ex_any c) /\
  ~ alias_end (o_types (ps_opt s)) ex_any (ex_id "a").
Proof.
  exists ex_any_types. do 2 eexists. split; [|split; [vm_compute; reflexivity|]].
  - repeat (constructor; [cbn; intros X; repeat (destruct X as [X|X]; [discriminate X|]); exact X|]). constructor.
  - split; [reflexivity|]. split; [vm_compute; reflexivity|].
    match goal with |- ?A /\ _ => assert (N : A) end.
    + intros c (ty & L & V). vm_compute in L. injection L as <-. discriminate V.
    + split; [exact N|]. intros [H _]. inversion H; subst. eapply N; eassumption.
Qed.
Print Assumptions C57_replace_any_refuted.

(** Merging the dynamic type [i], whose own type stands for [base]: every entry that
    stands for [base], while [base] is a dynamic type, gives way to the entries of
    [base]; of entries with the same key the first one stays.  All else is kept. *)
Theorem C65_merged : forall fuel o i ty dm o', lookup i (o_types o) = Some ty -> m_variant ty = VDynamic dm ->
  merge_dynamic_type fuel o i = Some (Ok o') ->
  (forall j, j <> i -> lookup j (o_types o') = lookup j (o_types o)) /\
  ((forall t base, dy_type dm = Some t -> get_resolved_ident (o_types o) t <> Some base) -> o' = o) /\
  forall t base, dy_type dm = Some t -> get_resolved_ident (o_types o) t = Some base ->
    exists all kept, expanded (o_types o) base (dy_derived dm) all /\ firsts same_key [] all kept /\
      lookup i (o_types o') = Some (set_variant ty (VDynamic (DynMeta (dy_type dm) (dy_abstract dm) kept))).
Proof. exact merge_dynamic_spec. Qed.
Print Assumptions C65_merged.

(** It ends unless an entry of the type [base] stands for [base] itself; then it does not. *)
Theorem C65_ends : forall o i, 
  (forall ty dm t base, lookup i (o_types o) = Some ty -> m_variant ty = VDynamic dm -> dy_type dm = Some t ->
     get_resolved_ident (o_types o) t = Some base -> ~ loops_at (o_types o) base) ->
  exists fuel r, merge_dynamic_type fuel o i = Some r /\ r <> Panic.
Proof.
  intros o i H. exists 2. unfold merge_dynamic_type, get_variant. destruct (lookup i (o_types o)) as [ty|] eqn:L; cbn [option_map].
  2: { eexists. split; [reflexivity|discriminate]. }
  destruct (m_variant ty) as [| | | | |dm| | | | |] eqn:V; try (eexists; split; [reflexivity|discriminate]).
  destruct (match dy_type dm with Some t => get_resolved_ident (o_types o) t | None => None end) as [base|] eqn:B;
    [|eexists; split; [reflexivity|discriminate]].
  destruct (dy_type dm) as [t|] eqn:T; [|discriminate].
  pose proof (add_ends 2 _ _ (H _ _ _ _ eq_refl V T B) (dy_derived dm) [] (le_n _)) as N.
  destruct (add_derived_types 2 _ _ _ _) as [l|]; [|congruence]. eexists. split; [reflexivity|discriminate].
Qed.
Print Assumptions C65_ends.
Theorem C65_endless : forall o i ty dm t base e, lookup i (o_types o) = Some ty -> m_variant ty = VDynamic dm ->
  dy_type dm = Some t -> get_resolved_ident (o_types o) t = Some base -> loops_at (o_types o) base ->
  In e (dy_derived dm) -> stands_for_base (o_types o) base e -> forall fuel, merge_dynamic_type fuel o i = None.
Proof.
  intros o i ty dm t base e L V T B Lo Ie Se fuel. unfold merge_dynamic_type, get_variant. rewrite L. cbn [option_map]. rewrite V, T, B.
  rewrite (add_endless fuel _ _ Lo _ _ _ Ie Se). reflexivity.
Qed.
Print Assumptions C65_endless.

(** The whole pass changes nothing but the entries of dynamic types. *)
Theorem C65_frame : forall fuel o o', merge_dynamic_types fuel o = Some (Ok o') ->
  map fst (o_types o') = map fst (o_types o) /\
  forall i ty, lookup i (o_types o) = Some ty ->
    match m_variant ty with
    | VDynamic dm => exists kept, lookup i (o_types o') = Some (set_variant ty (VDynamic (DynMeta (dy_type dm) (dy_abstract dm) kept)))
    | _ => lookup i (o_types o') = Some ty
    end.
Proof. exact merge_dynamics_frame. Qed.
Print Assumptions C65_frame.

Definition ex_key (s : string) (t : ident_type) : tident := TIdent 1 0 (Named s) t.
Definition ex_entry (s : string) (k : ident_type) (t : string) (r : relationship) : tident * derived_meta :=
  (ex_key s k, Derived (ex_id t) None r).
Definition ex_dynamic (t : string) (l : list (tident * derived_meta)) : mtype :=
  mtype_new (VDynamic (DynMeta (Some (ex_id t)) false l)).

Example C65_case : option_map (fun r => match r with Ok o => lookup (ex_id "head") (o_types o) | _ => None end) (merge_dynamic_types 5 (opt_new
    [(ex_id "base", ex_dynamic "content" [ex_entry "base" ITType "content" RelConcrete; ex_entry "sub" ITType "sub" RelDirect]);
     (ex_id "content", ex_empty); (ex_id "sub", ex_empty); (ex_id "al", ex_ref "base");
     (ex_id "head", ex_dynamic "base" [ex_entry "head" ITElement "al" RelConcrete; ex_entry "sub" ITType "other" RelDirect; ex_entry "m" ITElement "sub" RelDirect])])) =
  Some (Some (ex_dynamic "base" [ex_entry "base" ITType "content" RelConcrete; ex_entry "sub" ITType "sub" RelDirect; ex_entry "m" ITElement "sub" RelDirect])).
Proof. vm_compute. reflexivity. Qed.

(** The pass makes every dynamic type a complex type, whose content is a new type: a
    choice with one alternative for every namespace and name among the entries.  It is
    selected by [xsi:type] if an entry of that name is a type, by the tag if one is an
    element, and without [xsi:type] if one is the type itself.  Nothing else changes, and
    there is no panic while the generated names are unused. *)
Theorem C66_choices : forall o counter, NoDup (map fst (o_types o)) -> unused_names (o_types o) counter ->
  exists o' counter', convert_dynamics o counter = Ok (o', counter') /\
    (forall i ty dm, lookup i (o_types o') = Some ty -> m_variant ty <> VDynamic dm) /\
    (forall i ty, lookup i (o_types o) = Some ty -> (forall dm, m_variant ty <> VDynamic dm) -> lookup i (o_types o') = Some ty) /\
    exists contents, NoDup contents /\ Forall2 (fun i c => exists ty dm, lookup i (o_types o) = Some ty /\ m_variant ty = VDynamic dm /\
      chosen (o_types o) (o_types o') i ty dm c) (dynamic_idents (o_types o)) contents.
Proof. exact convert_all. Qed.
Print Assumptions C66_choices.

(** If the entries differ in namespace or name, each of them has an alternative of its
    own with its type. *)
Theorem C66_every_entry_partial : forall form d es, NoDup (map (fun p => (ti_ns (fst p), ti_name (fst p))) d) ->
  alternatives_of form d es -> Forall2 (represents form d) d es.
Proof. exact alternatives_all. Qed.
Print Assumptions C66_every_entry_partial.

(** A type and an element of the same name share an alternative: the type of the second
    is lost. *)
Definition ex_clash : types :=
  [(ex_id "content", ex_empty); (ex_id "x", ex_empty); (ex_id "y", ex_empty);
   (ex_id "d", ex_dynamic "content" [ex_entry "a" ITType "x" RelDirect; ex_entry "a" ITElement "y" RelDirect])].
Theorem C66_lost_refuted : exists o' n', convert_dynamics (opt_new ex_clash) 0 = Ok (o', n') /\
  NoDup (map fst ex_clash) /\ unused_names ex_clash 0 /\
  (exists ty dm e, lookup (ex_id "d") ex_clash = Some ty /\ m_variant ty = VDynamic dm /\ In e (dy_derived dm) /\ dt_type (snd e) = ex_id "y") /\
  forall i ty, lookup i (o_types o') = Some ty -> ~ In (ex_id "y") (uses (m_variant ty)).
Proof.
  do 2 eexists. split; [vm_compute; reflexivity|]. split; [|split; [|split]].
  - repeat (constructor; [cbn; intros X; repeat (destruct X as [X|X]; [discriminate X|]); exact X|]). constructor.
  - intros n i _ I. cbn in I. repeat (destruct I as [<-|I]; [discriminate|]). destruct I.
  - do 3 eexists. split; [vm_compute; reflexivity|]. split; [reflexivity|]. split; [right; left; reflexivity|reflexivity].
  - intros i ty L. apply lookup_in in L. cbn in L.
    repeat (destruct L as [L|L]; [injection L as <- <-; cbn; intros X; repeat (destruct X as [X|X]; [discriminate X|]); exact X|]). destruct L.
Qed.
Print Assumptions C66_lost_refuted.

Example C66_case : match convert_dynamics (opt_new
    [(ex_id "content", ex_empty); (ex_id "x", ex_empty);
     (ex_id "d", ex_dynamic "content" [ex_entry "d" ITType "content" RelConcrete; ex_entry "x" ITType "x" RelDirect])]) 0 with
  | Ok (o, n) => Some (map (fun p => (ti_name (fst p), m_variant (snd p))) (skipn 2 (o_types o)), n)
  | _ => None
  end = Some ([
    (Named "d", VComplex (ComplexMeta BaseNone (Some (content_ident 1 (Generated "Content0"))) 1 (Bounded 1) true false []));
    (Generated "Content0", VChoice (GroupMeta false [
       ElementMeta (PIdent 1 (Named "d")) (EVType (ex_id "content") ModeElement) Unqualified 10 1 (Bounded 1) None [];
       ElementMeta (PIdent 1 (Named "x")) (EVType (ex_id "x") ModeElement) Unqualified 8 1 (Bounded 1) None []]))], 1).
Proof. vm_compute. reflexivity. Qed.
