(** C31, C33, C55: redirecting type definitions, cleaning up unions and enumerations,
    and replacing restrictions by their base. *)
From Verif Require Import MetaModel MetaSpec MetaProofs MetaProps DupModel DupSpec DupProofs DupProps OptModel OptSpec OptProofs.
Local Open Scope string_scope.

(** Without circular type definitions the pass ends.  The identifiers and the aliases
    are the same ones as before; every type keeps everything but the identifiers it
    uses; each of these, position by position, stands for the same type as before, and
    those the pass redirects are no aliases any more. *)
Theorem C31_same_target_partial : forall o,
  NoDup (map fst (o_types o)) -> no_loops (o_types o) -> cache_ok o ->
  exists o', resolve_typedefs o = Some o' /\ map fst (o_types o') = map fst (o_types o) /\ cache_ok o' /\
  (forall i e, alias_end (o_types o') i e <-> alias_end (o_types o) i e) /\
  forall i ty, lookup i (o_types o) = Some ty -> exists v', lookup i (o_types o') = Some (set_variant ty v') /\
    erased v' = erased (m_variant ty) /\
    Forall2 (fun a b => forall e, alias_end (o_types o) a e <-> alias_end (o_types o') b e) (uses (m_variant ty)) (uses v') /\
    forall b c, In b (direct_uses v') -> ~ plain_step (o_types o') b c.
Proof. exact resolve_spec. Qed.
Print Assumptions C31_same_target_partial.

(** Without circular type definitions every identifier stands for exactly one type. *)
Theorem C31_ends : forall ts i, NoDup (map fst ts) -> no_loops ts ->
  exists e, alias_end ts i e /\ forall e', alias_end ts i e' -> e' = e.
Proof.
  intros ts i ND NL. destruct (no_loops_end ts i ND NL) as (e & A). exists e. split; [exact A|].
  intros e' A'. exact (end_det _ _ _ _ A' A).
Qed.
Print Assumptions C31_ends.

Example C31_case : option_map o_types (resolve_typedefs (opt_new
    [(ex_id "a", ex_ref "b"); (ex_id "b", ex_ref "c"); (ex_id "c", mtype_new (VBuildIn BString)); (ex_id "s", ex_seq "a")])) =
  Some [(ex_id "a", ex_ref "c"); (ex_id "b", ex_ref "c"); (ex_id "c", mtype_new (VBuildIn BString)); (ex_id "s", ex_seq "c")].
Proof. vm_compute. reflexivity. Qed.

(** The base of a simple type, the target of a repeated reference and the keys of a
    dynamic type keep referring to a plain type definition. *)
Definition ex_left (v : variant) : types :=
  [(ex_id "a", ex_ref "c"); (ex_id "c", mtype_new (VBuildIn BString)); (ex_id "s", mtype_new v)].

Theorem C31_all_uses_refuted :
  Forall (fun v => no_loops (ex_left v) /\ NoDup (map fst (ex_left v)) /\
    exists o' ty', resolve_typedefs (opt_new (ex_left v)) = Some o' /\ lookup (ex_id "s") (o_types o') = Some ty' /\
      exists b c, In b (uses (m_variant ty')) /\ plain_step (o_types o') b c)
    [VSimple (SimpleMeta (ex_id "a") false no_constrains);
     VReference (RefMeta (ex_id "a") false 0 Unbounded);
     VDynamic (DynMeta None false [(ex_id "a", Derived (ex_id "a") None RelDirect)])].
Proof.
  assert (P : forall v, plain_ref v = None -> no_loops (ex_left v) /\ NoDup (map fst (ex_left v))).
  { intros v N. split.
    - intros a b (ty & L & V) H. apply lookup_in in L. cbn in L. destruct L as [L|[L|[L|[]]]]; injection L as <- <-.
      + injection V as <-. inversion H as [|? ? ? (t & Lt & Vt) R]; subst. cbn in Lt. injection Lt as <-. discriminate Vt.
      + discriminate V.
      + cbn in V. subst v. discriminate N.
    - repeat (constructor; [cbn; intros X; repeat (destruct X as [X|X]; [discriminate X|]); exact X|]). constructor. }
  repeat (constructor; [split; [apply P; reflexivity|]; split; [apply P; reflexivity|];
    eexists; eexists; split; [vm_compute; reflexivity|]; split; [reflexivity|];
    exists (ex_id "a"), (ex_id "c"); split; [left; reflexivity|]; exists (ex_ref "c"); split; reflexivity|]).
  constructor.
Qed.
Print Assumptions C31_all_uses_refuted.

(** On a circular type definition the recursion never ends: more fuel than the model has
    changes nothing, and for some types there is no result. *)
Theorem C31_endless : forall m i, td_resolve m i = None -> forall fuel, td_resolve_fuel fuel m i = None.
Proof.
  intros m i N fuel. destruct (td_resolve_fuel fuel m i) as [e|] eqn:E; [|reflexivity].
  apply td_more in E. congruence.
Qed.
Print Assumptions C31_endless.
Theorem C31_loops_refuted : exists ts, NoDup (map fst ts) /\ resolve_typedefs (opt_new ts) = None.
Proof.
  exists [(ex_id "x", ex_ref "y"); (ex_id "y", ex_ref "x")]. split; [|vm_compute; reflexivity].
  repeat (constructor; [cbn; intros X; repeat (destruct X as [X|X]; [discriminate X|]); exact X|]). constructor.
Qed.
Print Assumptions C31_loops_refuted.

(** A union keeps the first member of each type, aliases being the same as what they
    stand for; nothing else changes. *)
Theorem C33_union_members : forall o,
  NoDup (map fst (o_types o)) -> no_loops (o_types o) -> cache_ok o ->
  exists o', remove_duplicate_union_variants o = Some o' /\ map fst (o_types o') = map fst (o_types o) /\ cache_ok o' /\
  (forall i e, alias_end (o_types o') i e <-> alias_end (o_types o) i e) /\
  forall i ty, lookup i (o_types o) = Some ty ->
    match m_variant ty with
    | VUnion x => exists l', lookup i (o_types o') = Some (set_variant ty (VUnion (UnionMeta (un_base x) l' (un_constrains x)))) /\
        firsts (fun a b => forall e, alias_end (o_types o) (ut_type a) e <-> alias_end (o_types o) (ut_type b) e) [] (un_types x) l'
    | _ => lookup i (o_types o') = Some ty
    end.
Proof. exact dedup_variants_spec. Qed.
Print Assumptions C33_union_members.

Definition ex_union (l : list string) (c : constrains) : mtype :=
  mtype_new (VUnion (UnionMeta BaseNone (map (fun s => UType (ex_id s) None) l) c)).
Example C33_union_case : option_map o_types (remove_duplicate_union_variants (opt_new
    [(ex_id "a", ex_ref "c"); (ex_id "c", mtype_new (VBuildIn BString)); (ex_id "d", mtype_new (VBuildIn BBool));
     (ex_id "u", ex_union ["a"; "d"; "c"; "d"] no_constrains)])) =
  Some [(ex_id "a", ex_ref "c"); (ex_id "c", mtype_new (VBuildIn BString)); (ex_id "d", mtype_new (VBuildIn BBool));
     (ex_id "u", ex_union ["a"; "d"] no_constrains)].
Proof. vm_compute. reflexivity. Qed.

(** An enumeration loses exactly the variants with an empty name; nothing else changes. *)
Theorem C33_enum_variants : forall o,
  map fst (o_types (remove_empty_enum_variants o)) = map fst (o_types o) /\
  forall i ty, lookup i (o_types o) = Some ty ->
    match m_variant ty with
    | VEnumeration x => exists l', lookup i (o_types (remove_empty_enum_variants o)) =
        Some (set_variant ty (VEnumeration (EnumMeta (en_base x) l' (en_constrains x)))) /\
        kept (fun e => pi_name (ev_ident e) <> Named "") (en_variants x) l'
    | _ => lookup i (o_types (remove_empty_enum_variants o)) = Some ty
    end.
Proof. intros o. split; [apply (mv_keys drop_empty_variants)|intros i ty; apply drop_variants_spec]. Qed.
Print Assumptions C33_enum_variants.

(** An enumeration without variants becomes an alias of its base, if it has one; nothing
    else changes. *)
Theorem C33_empty_enums : forall o i ty, lookup i (o_types o) = Some ty ->
  lookup i (o_types (remove_empty_enums o)) = Some
    (match m_variant ty with
     | VEnumeration (EnumMeta (BaseExt b) [] _) => set_variant ty (VReference (RefMeta b false 1 (Bounded 1)))
     | VEnumeration (EnumMeta (BaseRes b) [] _) => set_variant ty (VReference (RefMeta b false 1 (Bounded 1)))
     | _ => ty
     end).
Proof.
  intros o i ty L. unfold remove_empty_enums. rewrite replace_lookup_t, L. cbn. f_equal.
  destruct (m_variant ty) as [x|x|x|x|x|x|x|x|x|x|x]; cbn; try reflexivity.
  destruct x as [[|b|b] [|e l] c]; reflexivity.
Qed.
Print Assumptions C33_empty_enums.

(** A union with one member becomes an alias of the member, one without members an alias
    of its base, if it has one; nothing else changes. *)
Theorem C33_empty_unions : forall o i ty, lookup i (o_types o) = Some ty ->
  lookup i (o_types (remove_empty_unions o)) = Some
    (match m_variant ty with
     | VUnion (UnionMeta _ [t] _) => set_variant ty (VReference (RefMeta (ut_type t) false 1 (Bounded 1)))
     | VUnion (UnionMeta (BaseExt b) [] _) => set_variant ty (VReference (RefMeta b false 1 (Bounded 1)))
     | VUnion (UnionMeta (BaseRes b) [] _) => set_variant ty (VReference (RefMeta b false 1 (Bounded 1)))
     | _ => ty
     end).
Proof.
  intros o i ty L. unfold remove_empty_unions. rewrite replace_lookup_t, L. cbn. f_equal.
  destruct (m_variant ty) as [x|x|x|x|x|x|x|x|x|x|x]; cbn; try reflexivity.
  destruct x as [[|b|b] [|t [|t' l]] c]; reflexivity.
Qed.
Print Assumptions C33_empty_unions.

(** The constraints of a union with one member are lost with it. *)
Theorem C33_constrains_refuted : exists o i ty x, lookup i (o_types o) = Some ty /\ m_variant ty = VUnion x /\
  un_constrains x <> no_constrains /\
  exists ty', lookup i (o_types (remove_empty_unions o)) = Some ty' /\
    plain_ref (m_variant ty') = Some (ex_id "c") /\
    lookup (ex_id "c") (o_types (remove_empty_unions o)) = Some (mtype_new (VBuildIn BString)).
Proof.
  set (c := Constrains BUnbounded BUnbounded None None ["[a-z]+"] None None WPreserve).
  exists (opt_new [(ex_id "c", mtype_new (VBuildIn BString)); (ex_id "u", ex_union ["c"] c)]), (ex_id "u"), (ex_union ["c"] c).
  eexists. split; [reflexivity|]. split; [reflexivity|]. split; [discriminate|].
  eexists. split; [reflexivity|]. split; reflexivity.
Qed.
Print Assumptions C33_constrains_refuted.

(** Every type of a kind the flags ask for becomes an alias of the type at the end of its
    chain of restrictions, unless it is that type; nothing else changes. *)
Theorem C55_unrestricted : forall fl o,
  NoDup (map fst (o_types o)) -> no_restriction_loops (o_types o) -> o_bases o = None -> cache_ok o ->
  exists o', use_unrestricted_base_type fl o = Some o' /\ map fst (o_types o') = map fst (o_types o) /\ cache_ok o' /\
  forall i ty, lookup i (o_types o) = Some ty -> exists e,
    restricts_all (o_types o) i e /\ (forall c, ~ restricts (o_types o) e c) /\
    (asked fl (m_variant ty) -> i <> e ->
       lookup i (o_types o') = Some (set_variant ty (VReference (RefMeta e false 1 (Bounded 1))))) /\
    (~ asked fl (m_variant ty) \/ i = e -> lookup i (o_types o') = Some ty).
Proof. exact use_unrestricted_asked. Qed.
Print Assumptions C55_unrestricted.

Definition ex_complex (b : base_meta) : mtype := mtype_new (VComplex (ComplexMeta b None 1 (Bounded 1) false false [])).
Example C55_case : option_map o_types (use_unrestricted_base_type (BaseFlags true false false false) (opt_new
    [(ex_id "a", ex_complex (BaseRes (ex_id "b"))); (ex_id "b", ex_complex (BaseRes (ex_id "c")));
     (ex_id "c", ex_complex (BaseExt (ex_id "d"))); (ex_id "d", ex_complex BaseNone)])) =
  Some [(ex_id "a", ex_ref "c"); (ex_id "b", ex_ref "c");
     (ex_id "c", ex_complex (BaseExt (ex_id "d"))); (ex_id "d", ex_complex BaseNone)].
Proof. vm_compute. reflexivity. Qed.
