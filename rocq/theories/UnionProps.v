(** C32, C56: flattening unions and merging enumerations into one. *)
From Verif Require Import MetaModel MetaSpec MetaProofs MetaProps OptModel OptSpec OptProofs UnionModel UnionSpec UnionProofs.
Local Open Scope string_scope.

(** If the pass ends, it ends without an error.  Only unions change, and of a union only
    its members and constraints.  Every type still stands for the same types in the same
    order, the members of a changed union are exactly the types it stood for, and no
    member is a union or an alias of one any more. *)
Theorem C32_flatten_partial : forall fuel o r, NoDup (map fst (o_types o)) -> flatten_unions fuel o = Some r ->
  exists o', r = Ok o' /\ map fst (o_types o') = map fst (o_types o) /\
  (forall i d l, leaves (o_types o') i d l <-> leaves (o_types o) i d l) /\
  forall i ty, lookup i (o_types o) = Some ty ->
    match m_variant ty with
    | VUnion x => exists x', lookup i (o_types o') = Some (set_variant ty (VUnion x')) /\ un_base x' = un_base x /\
        (x' = x \/ leaves (o_types o) i None (un_types x')) /\
        forall t, In t (un_types x') -> ~ stands_for_union (o_types o') (ut_type t)
    | _ => lookup i (o_types o') = Some ty
    end.
Proof.
  intros fuel o r ND F. destruct (flatten_unions_spec _ _ _ ND F) as (o' & E & R & _ & _). exists o'.
  split; [exact E|]. split; [apply (fr_keys _ _ _ R)|]. split; [apply (fr_leaves _ _ _ R)|].
  intros i ty L. pose proof (fr_types _ _ _ R i ty L) as T. destruct (m_variant ty) eqn:V; try exact T.
  destruct T as (x' & A & B & C & D). exists x'. repeat (split; [assumption|]). apply D. apply union_idents_in.
  exists ty, x. split; [apply lookup_in; exact L|exact V].
Qed.
Print Assumptions C32_flatten_partial.

(** A type stands for one list of types only, none of them a union or an alias. *)
Theorem C32_leaves_unique : forall ts i d l l', leaves ts i d l -> leaves ts i d l' ->
  l = l' /\ forall t, In t l -> exists ty, lookup (ut_type t) ts = Some ty /\
    (forall x, m_variant ty <> VUnion x) /\ forall j, ~ plain_step ts (ut_type t) j.
Proof.
  intros ts i d l l' H H'. split; [apply (proj1 (leaves_det ts) _ _ _ H _ H')|]. intros t I.
  destruct (leaves_are ts) as [A _]. specialize (A _ _ _ H). rewrite Forall_forall in A.
  destruct (A _ I) as (_ & ty & L & NU & NS). exists ty. auto.
Qed.
Print Assumptions C32_leaves_unique.

(** The pass ends if no union is a member of itself. *)
Theorem C32_ends : forall o, NoDup (map fst (o_types o)) -> finite_unions (o_types o) ->
  exists f0, forall fuel, f0 <= fuel -> exists o', flatten_unions fuel o = Some (Ok o').
Proof. exact flatten_unions_ends. Qed.
Print Assumptions C32_ends.

Definition ex_members (l : list string) : union_meta :=
  UnionMeta BaseNone (map (fun s => UType (ex_id s) (Some s)) l) no_constrains.
Definition ex_unions : types :=
  [(ex_id "alias", ex_ref "inner"); (ex_id "enum", mtype_new (VEnumeration (EnumMeta BaseNone
      [EVariant (PIdent 1 (Named "x")) UseOptional None None [] None; EVariant (PIdent 1 (Named "y")) UseRequired None (Some "Y") [] None] no_constrains)));
   (ex_id "inner", mtype_new (VUnion (ex_members ["str"; "enum"]))); (ex_id "int", mtype_new (VBuildIn BI32));
   (ex_id "outer", mtype_new (VUnion (ex_members ["int"; "alias"; "str"]))); (ex_id "str", mtype_new (VBuildIn BString))].

Example C32_case : NoDup (map fst ex_unions) /\ finite_unions ex_unions /\
  leaves ex_unions (ex_id "outer") None (un_types (ex_members ["int"; "str"; "enum"; "str"])) /\
  option_map (fun r => match r with Ok o => lookup (ex_id "outer") (o_types o) | _ => None end) (flatten_unions 9 (opt_new ex_unions)) =
    Some (Some (mtype_new (VUnion (ex_members ["int"; "str"; "enum"; "str"])))).
Proof.
  assert (ND : NoDup (map fst ex_unions)).
  { repeat (constructor; [cbn; intros X; repeat (destruct X as [X|X]; [discriminate X|]); exact X|]). constructor. }
  assert (O : forall i d ty, lookup i ex_unions = Some ty -> plain_ref (m_variant ty) = None -> is_union (m_variant ty) = false ->
    leaves ex_unions i d [UType i d]).
  { intros i d ty L P U. eapply leaves_other; [exact L| |].
    - intros x V. rewrite V in U. discriminate.
    - intros j S. apply step_iff in S. destruct S as (t & Lt & Pt). congruence. }
  assert (I : forall d, leaves ex_unions (ex_id "inner") d (un_types (ex_members ["str"; "enum"]))).
  { intros d. eapply leaves_union; [reflexivity|reflexivity|].
    apply (la_cons _ _ _ [_] [_]); [eapply O; reflexivity|]. apply (la_cons _ _ _ [_] []); [eapply O; reflexivity|constructor]. }
  assert (U : leaves ex_unions (ex_id "outer") None (un_types (ex_members ["int"; "str"; "enum"; "str"]))).
  { eapply leaves_union; [reflexivity|reflexivity|].
    apply (la_cons _ _ _ [_] [_; _; _]); [eapply O; reflexivity|].
    apply (la_cons _ _ _ [_; _] [_]); [eapply leaves_alias; [exists (ex_ref "inner"); split; reflexivity|apply I]|].
    apply (la_cons _ _ _ [_] []); [eapply O; reflexivity|constructor]. }
  split; [exact ND|]. split; [|split; [exact U|vm_compute; reflexivity]].
  intros i ty x L V. apply lookup_in in L. cbn in L.
  repeat (destruct L as [L|L]; [injection L as <- <-; try discriminate V; eexists; eauto|]). destruct L.
Qed.

(** The constraints of a union do not survive. *)
Theorem C32_constrains_refuted : exists ts fuel o' i ty x x',
  NoDup (map fst ts) /\ finite_unions ts /\ flatten_unions fuel (opt_new ts) = Some (Ok o') /\
  lookup i ts = Some ty /\ m_variant ty = VUnion x /\
  lookup i (o_types o') = Some (set_variant ty (VUnion x')) /\ un_constrains x' <> un_constrains x.
Proof.
  set (cs := Constrains BUnbounded BUnbounded None None ["a|b"] None None WPreserve).
  set (inner := UnionMeta BaseNone [UType (ex_id "str") None] no_constrains).
  set (outer := UnionMeta BaseNone [UType (ex_id "inner") None] cs).
  set (ts := [(ex_id "inner", mtype_new (VUnion inner)); (ex_id "outer", mtype_new (VUnion outer)); (ex_id "str", mtype_new (VBuildIn BString))]).
  assert (S : forall d, leaves ts (ex_id "str") d [UType (ex_id "str") d]).
  { intros d. eapply leaves_other; [reflexivity|discriminate|]. intros j St. apply step_iff in St. destruct St as (t & Lt & Pt).
    injection Lt as <-. discriminate Pt. }
  assert (I : forall d, leaves ts (ex_id "inner") d [UType (ex_id "str") None]).
  { intros d. eapply leaves_union; [reflexivity|reflexivity|]. apply (la_cons _ _ _ [_] []); [apply S|constructor]. }
  exists ts, 9, (Optimizer [(ex_id "inner", mtype_new (VUnion inner));
     (ex_id "outer", mtype_new (VUnion (UnionMeta BaseNone [UType (ex_id "str") None] no_constrains))); (ex_id "str", mtype_new (VBuildIn BString))] None None),
    (ex_id "outer"), (mtype_new (VUnion outer)), outer, (UnionMeta BaseNone [UType (ex_id "str") None] no_constrains).
  split. { repeat (constructor; [cbn; intros X; repeat (destruct X as [X|X]; [discriminate X|]); exact X|]). constructor. }
  split.
  { intros i ty x L V. apply lookup_in in L. cbn in L. destruct L as [L|[L|[L|[]]]]; injection L as <- <-.
    - eexists. apply I.
    - exists [UType (ex_id "str") None]. eapply leaves_union; [reflexivity|reflexivity|].
      apply (la_cons ts (UType (ex_id "inner") None) [] [UType (ex_id "str") None] []); [apply I|constructor].
    - discriminate V. }
  split; [vm_compute; reflexivity|]. split; [reflexivity|]. split; [reflexivity|]. split; [reflexivity|discriminate].
Qed.
Print Assumptions C32_constrains_refuted.

(** A union that is a member of itself is never flattened: no amount of fuel helps. *)
Theorem C32_endless_refuted : exists ts, NoDup (map fst ts) /\ forall fuel, flatten_unions fuel (opt_new ts) = None.
Proof.
  exists [(ex_id "u", mtype_new (VUnion (ex_members ["u"])))]. split; [repeat constructor; intros []|].
  assert (G : forall fuel d n, flatten_impl fuel [(ex_id "u", mtype_new (VUnion (ex_members ["u"])))] (ex_id "u") d n = None).
  { induction fuel as [|fuel IH]; intros d n; [reflexivity|]. cbn. unfold foldM. cbn. apply IH. }
  intros fuel. unfold flatten_unions, on_unions. cbn. unfold flatten_union. cbn [o_types opt_new]. rewrite G. reflexivity.
Qed.
Print Assumptions C32_endless_refuted.

(** Whatever is merged into what: if the pass ends, it ends without an error, every type
    that is no union is as before, and every type accepts the same literals, and values
    of types of the same names, as before. *)
Theorem C56_same_offers : forall fuel o r, NoDup (map fst (o_types o)) -> merge_enum_unions fuel o = Some r ->
  exists o', r = Ok o' /\ map fst (o_types o') = map fst (o_types o) /\
  (forall i id, offers (o_types o') i id <-> offers (o_types o) i id) /\
  forall i ty, lookup i (o_types o) = Some ty -> (forall x, m_variant ty <> VUnion x) -> lookup i (o_types o') = Some ty.
Proof.
  intros fuel o r ND H. destruct (merge_all _ _ _ ND H) as (o' & E & K & _ & _ & _ & O & N). exists o'. auto.
Qed.
Print Assumptions C56_same_offers.

(** Merging one union.  If none of the types it stands for is an enumeration, they become
    its members.  Otherwise it becomes an enumeration with the literals of the
    enumerations and one variant for each of the other types: no name occurs twice, no
    name is lost, nothing is invented, and if all the names differ the variants are just
    these, in this order. *)
Theorem C56_union_partial : forall fuel o i ty x r, lookup i (o_types o) = Some ty -> m_variant ty = VUnion x ->
  merge_enum_union fuel o i = Some r -> exists o' l, r = Ok o' /\ leaves (o_types o) i None l /\
    (forall j, j <> i -> lookup j (o_types o') = lookup j (o_types o)) /\
    ((l = [] /\ lookup i (o_types o') = Some ty) \/
     (l <> [] /\ Forall (fun t => ~ is_enum (o_types o) t) l /\
        lookup i (o_types o') = Some (set_variant ty (VUnion (UnionMeta BaseNone l no_constrains)))) \/
     (Exists (is_enum (o_types o)) l /\ exists vs,
        lookup i (o_types o') = Some (set_variant ty (VEnumeration (EnumMeta BaseNone vs no_constrains))) /\
        NoDup (map ev_ident vs) /\
        (forall id, In id (map ev_ident vs) <-> exists t, In t l /\ In id (map (fun c => fst (fst c)) (contributions (o_types o) t))) /\
        (forall v, In v vs -> exists t d, In t l /\ In (ev_ident v, ev_type v, d) (contributions (o_types o) t)) /\
        (NoDup (map (fun c => fst (fst c)) (flat_map (contributions (o_types o)) l)) ->
           vs = map variant_of (flat_map (contributions (o_types o)) l)))).
Proof. exact merge_exact. Qed.
Print Assumptions C56_union_partial.

Example C56_case : option_map (fun r => match r with Ok o => lookup (ex_id "outer") (o_types o) | _ => None end)
    (merge_enum_unions 9 (opt_new ex_unions)) =
  Some (Some (mtype_new (VEnumeration (EnumMeta BaseNone
    [EVariant (PIdent 1 (Named "int")) UseOptional (Some (ex_id "int")) (Some "int") [] None;
     EVariant (PIdent 1 (Named "str")) UseOptional (Some (ex_id "str")) (Some "str") [] None;
     EVariant (PIdent 1 (Named "x")) UseOptional None None [] None;
     EVariant (PIdent 1 (Named "y")) UseOptional None (Some "Y") [] None] no_constrains)))).
Proof. vm_compute. reflexivity. Qed.

(** A literal with the name of another member type makes that type unselectable: the
    merged enumeration has the literal only. *)
Theorem C56_collision_refuted : exists ts fuel o' i ty x vs,
  NoDup (map fst ts) /\ lookup i ts = Some ty /\ m_variant ty = VUnion x /\ In (UType (ex_id "str") None) (un_types x) /\
  merge_enum_unions fuel (opt_new ts) = Some (Ok o') /\
  lookup i (o_types o') = Some (set_variant ty (VEnumeration (EnumMeta BaseNone vs no_constrains))) /\
  forall v, In v vs -> ev_type v = None.
Proof.
  set (u := UnionMeta BaseNone [UType (ex_id "enum") None; UType (ex_id "str") None] no_constrains).
  set (e := EnumMeta BaseNone [EVariant (PIdent 1 (Named "str")) UseOptional None None [] None] no_constrains).
  exists [(ex_id "enum", mtype_new (VEnumeration e)); (ex_id "str", mtype_new (VBuildIn BString)); (ex_id "u", mtype_new (VUnion u))], 9.
  eexists. exists (ex_id "u"), (mtype_new (VUnion u)), u. eexists.
  split. { repeat (constructor; [cbn; intros X; repeat (destruct X as [X|X]; [discriminate X|]); exact X|]). constructor. }
  split; [reflexivity|]. split; [reflexivity|]. split; [right; left; reflexivity|].
  split; [vm_compute; reflexivity|]. split; [vm_compute; reflexivity|].
  intros v [<-|[]]. reflexivity.
Qed.
Print Assumptions C56_collision_refuted.
