(** C89: the attributes of complex types. *)
From Verif Require Import Base.
From Verif Require Import AttrUseModel AttrUseSpec AttrUseProofs.
Local Open Scope string_scope.
Local Open Scope list_scope.

(** The type that is generated for a complex type has a field for exactly the attributes that the schema gives to the type, inherited
    ones and those of attribute groups included, with the name, the type, the use and the default that
    the schema says; and it admits other attributes exactly if the schema says so.
    Missing: attribute groups and bases of other schemas, references in schemas with unqualified attributes,
    declarations with the same name but a different form ([in_one_schema], [names_clear]), restrictions
    that change the type or the default of an attribute ([declared_alike]) or drop
    the wildcard ([wildcards_kept]), attribute groups that contain themselves ([well_founded]); see the refutations below. *)
Theorem C89_attributes_partial groups types rank_t rank_g t :
  well_founded groups types rank_t rank_g -> types t <> None -> valid groups types t ->
  in_one_schema groups types t -> names_clear groups types t -> declared_alike groups types t -> wildcards_kept groups types t ->
  exists bound l,
    (forall fuel, bound <= fuel -> attributes_of groups types fuel t = Some l) /\
    (forall u, In u (fields l) <-> has_use groups types t u) /\
    (any_attribute l = true <-> has_any groups types t).
Proof.
  intros W T V O N D K. destruct (attributes_spec groups types rank_t rank_g W (S (rank_t t)) t) as (b & l & A & I); try assumption; [lia|].
  exists b, l. split; [exact A|]. split; [exact (iv_fields _ _ _ _ I)|exact (iv_any _ _ _ _ I)].
Qed.
Print Assumptions C89_attributes_partial.

(** No attribute has two fields. *)
Theorem C89_once_partial groups types rank_t rank_g t fuel l :
  well_founded groups types rank_t rank_g -> types t <> None -> valid groups types t ->
  in_one_schema groups types t -> names_clear groups types t -> declared_alike groups types t -> wildcards_kept groups types t ->
  attributes_of groups types fuel t = Some l -> NoDup (map f_name (fields l)).
Proof. intros W. apply (fields_once groups types rank_t rank_g W). Qed.
Print Assumptions C89_once_partial.

(** A type 0 with the group 0, an extension 1 and a restriction 2 that prohibits [b] and requires [a]. *)
Definition at_ (n : string) (u : use) (d : option string) (ty : nat) := CAttr (ADecl (NLocal n) None u d ty).
Definition hm := Home 7 false.
Definition c89_groups (g : nat) : option agroup :=
  match g with
  | 0 => Some (AGroup hm [at_ "b" UOptional None 11; CGroup 1])
  | 1 => Some (AGroup hm [CAttr (ADecl (NLocal "c") (Some true) URequired None 12)])
  | _ => None
  end.
Definition c89_types (t : nat) : option ctype :=
  match t with
  | 0 => Some (CType hm BNone [at_ "a" UOptional None 10; CGroup 0])
  | 1 => Some (CType hm (BExtension 0) [CAttr (ADecl (NRef 8 "lang") (Some true) UOptional (Some "en") 13); CAny])
  | 2 => Some (CType hm (BRestriction 1) [at_ "b" UProhibited None 11; at_ "a" URequired None 10; CAny])
  | _ => None
  end.

Ltac each H := cbn in H; repeat match type of H with
  | _ \/ _ => destruct H as [H|H]
  | False => destruct H
  end.
Ltac wf := constructor;
  [ intros t ty b T B; repeat (destruct t as [|t]; [|try discriminate T]); cbn in T; injection T as <-;
    destruct B as [B|B]; cbn in B; try discriminate B; injection B as <-; cbn; (split; [discriminate|lia])
  | intros t ty g T I; repeat (destruct t as [|t]; [|try discriminate T]); cbn in T; injection T as <-; each I; try discriminate I; injection I as <-; discriminate
  | intros g gr g' T I; repeat (destruct g as [|g]; [|try discriminate T]); cbn in T; try discriminate T; injection T as <-; each I; try discriminate I; injection I as <-; cbn; (split; [discriminate|lia]) ].

Example C89_case_wf : well_founded c89_groups c89_types (fun t => t) (fun g => 2 - g).
Proof. wf. Qed.
Ltac types_of A T WF := apply (in_ancestors _ _ _ _ WF) with (fuel := 5) in A; [|cbv beta; lia]; each A; subst; cbn in T; injection T as <-.
Ltac contents I WF := apply (in_listed _ _ _ _ WF) with (fuel := 4) in I; [|intros; cbv beta; lia]; each I; try discriminate I; try subst.
Ltac all_of I WF := apply (in_all_declared _ _ _ _ WF 4) in I; [|intros; cbv beta; lia]; each I; try discriminate I; try subst.
Ltac valid_by WF :=
  intros a ty A T; types_of A T WF; (split;
    [ intros x y X Y E; contents X WF; contents Y WF; cbn in E; try discriminate E; reflexivity
    | intros b x u B X U; cbn in B; try discriminate B; injection B as <-;
      apply has_use_declared in U; destruct U as (y & Y & -> & _); contents X WF; all_of Y WF; discriminate ]).
Ltac schema_by WF := intros a ty x A T X; types_of A T WF; contents X WF; split; reflexivity.
Ltac clear_by WF := intros x y X Y; all_of X WF; all_of Y WF; (split; intros E; cbn in E |- *; congruence).
Example C89_case_hyps : valid c89_groups c89_types 2 /\ in_one_schema c89_groups c89_types 2 /\ names_clear c89_groups c89_types 2 /\
  declared_alike c89_groups c89_types 2 /\ wildcards_kept c89_groups c89_types 2.
Proof.
  split; [valid_by C89_case_wf|]. split; [schema_by C89_case_wf|]. split; [clear_by C89_case_wf|]. split; [split|].
  - intros x y X Y E _ _. all_of X C89_case_wf; all_of Y C89_case_wf; cbn in E |- *; try discriminate E; auto.
  - intros a ty x A T X N. types_of A T C89_case_wf; contents X C89_case_wf; try (destruct N; intros E; discriminate E).
    split; [reflexivity|]. exists 1, (hm, ADecl (NLocal "b") None UOptional None 11).
    split; [auto|]. split; [|split; [discriminate|reflexivity]].
    exists 0, (CType hm BNone [at_ "a" UOptional None 10; CGroup 0]).
    split; [|split; [reflexivity|]].
    + eapply ancestor_base with (b := 0); [reflexivity|auto|constructor].
    + eapply in_group with (g := 0); [right; left; reflexivity|reflexivity|]. apply in_here. left. reflexivity.
  - intros a ty b A T B K. types_of A T C89_case_wf; cbn in B; try discriminate B. constructor. cbn. auto.
Qed.
Example C89_case_fields : exists l, attributes_of c89_groups c89_types 9 2 = Some l /\ any_attribute l = true /\
  fields l = [Field (None, "a") 10 true None; Field (Some 7, "c") 12 true None; Field (Some 8, "lang") 13 false (Some "en")].
Proof. eexists. repeat split. Qed.

(** ** Refutations *)
Definition no_groups (_ : nat) : option agroup := None.
Definition pair_of (a b : ctype) (t : nat) : option ctype := match t with 0 => Some a | 1 => Some b | _ => None end.
(** What the schema says and the code does, for a type of an otherwise unobjectionable schema: the attribute [u] is missing, the field [w] is in its place. *)
Definition field_wrong groups types t (u : field) (w : list field) : Prop :=
  exists l, attributes_of groups types 9 t = Some l /\ has_use groups types t u /\ ~ In u (fields l) /\ fields l = w.

(** A restriction that narrows the type of an attribute: the field has the type that the base says. *)
Definition c89_type := pair_of (CType hm BNone [at_ "a" UOptional None 10]) (CType hm (BRestriction 0) [at_ "a" UOptional None 11]).
Theorem C89_type_refuted :
  (exists rt rg, well_founded no_groups c89_type rt rg) /\ valid no_groups c89_type 1 /\ in_one_schema no_groups c89_type 1 /\
  field_wrong no_groups c89_type 1 (Field (None, "a") 11 false None) [Field (None, "a") 10 false None].
Proof.
  assert (W : well_founded no_groups c89_type (fun t => t) (fun g => 0)) by wf.
  split; [eauto|]. split; [valid_by W|]. split; [schema_by W|].
  eexists. split; [reflexivity|]. split; [|split; [intros I; each I; discriminate I|reflexivity]].
  apply (has_own _ _ 1 _ (hm, ADecl (NLocal "a") None UOptional None 11) eq_refl); [apply in_here; left; reflexivity|discriminate].
Qed.
Print Assumptions C89_type_refuted.

(** A restriction that requires an attribute with a default: the default stays. *)
Definition c89_default := pair_of (CType hm BNone [at_ "a" UOptional (Some "x") 10]) (CType hm (BRestriction 0) [at_ "a" URequired None 10]).
Theorem C89_default_refuted :
  (exists rt rg, well_founded no_groups c89_default rt rg) /\ valid no_groups c89_default 1 /\ in_one_schema no_groups c89_default 1 /\
  field_wrong no_groups c89_default 1 (Field (None, "a") 10 true None) [Field (None, "a") 10 true (Some "x")].
Proof.
  assert (W : well_founded no_groups c89_default (fun t => t) (fun g => 0)) by wf.
  split; [eauto|]. split; [valid_by W|]. split; [schema_by W|].
  eexists. split; [reflexivity|]. split; [|split; [intros I; each I; discriminate I|reflexivity]].
  apply (has_own _ _ 1 _ (hm, ADecl (NLocal "a") None URequired None 10) eq_refl); [apply in_here; left; reflexivity|discriminate].
Qed.
Print Assumptions C89_default_refuted.

(** A base in another namespace: an unqualified attribute that a restriction prohibits stays; one that it requires becomes two. *)
Definition other := Home 9 false.
Definition c89_prohibit := pair_of (CType other BNone [at_ "a" UOptional None 10; at_ "b" UOptional None 10])
  (CType hm (BRestriction 0) [at_ "a" UProhibited None 10; at_ "b" URequired None 10]).
Theorem C89_namespace_refuted :
  (exists rt rg, well_founded no_groups c89_prohibit rt rg) /\ valid no_groups c89_prohibit 1 /\ in_one_schema no_groups c89_prohibit 1 /\
  exists l, attributes_of no_groups c89_prohibit 9 1 = Some l /\
    ~ has_use no_groups c89_prohibit 1 (Field (None, "a") 10 false None) /\
    ~ has_use no_groups c89_prohibit 1 (Field (None, "b") 10 false None) /\
    fields l = [Field (None, "a") 10 false None; Field (None, "b") 10 false None; Field (None, "b") 10 true None].
Proof.
  assert (W : well_founded no_groups c89_prohibit (fun t => t) (fun g => 0)) by wf.
  split; [eauto|]. split; [valid_by W|]. split; [schema_by W|].
  eexists. split; [reflexivity|]. split; [|split; [|reflexivity]];
    intros U; match type of U with has_use _ _ _ ?f => remember f as u eqn:EU end;
    inversion U as [? ty x T I A|? ty b ? T B|? ty b ? T B _ N]; subst; cbn in T; injection T as <-; try discriminate B.
  - contents I W; [destruct A; reflexivity|]. match goal with H : use_of _ = _ |- _ => cbn in H; discriminate H end.
  - apply (N (hm, ADecl (NLocal "a") None UProhibited None 10)); [apply in_here; left; reflexivity|reflexivity].
  - contents I W; match goal with H : use_of _ = _ |- _ => cbn in H; discriminate H end.
  - apply (N (hm, ADecl (NLocal "b") None URequired None 10)); [apply in_here; right; left; reflexivity|reflexivity].
Qed.
Print Assumptions C89_namespace_refuted.

(** A restriction without [anyAttribute]: that of the base stays. *)
Definition c89_any := pair_of (CType hm BNone [CAny]) (CType hm (BRestriction 0) []).
Theorem C89_wildcard_refuted :
  (exists rt rg, well_founded no_groups c89_any rt rg) /\ valid no_groups c89_any 1 /\ in_one_schema no_groups c89_any 1 /\
  ~ has_any no_groups c89_any 1 /\ exists l, attributes_of no_groups c89_any 9 1 = Some l /\ any_attribute l = true.
Proof.
  assert (W : well_founded no_groups c89_any (fun t => t) (fun g => 0)) by wf.
  split; [eauto|]. split; [valid_by W|]. split; [schema_by W|]. split; [|eexists; split; reflexivity].
  intros H. inversion H as [? ty T C|? ty b T B]; subst; cbn in T; injection T as <-; [|discriminate B].
  inversion C as [? I|? ? ? I]; subst; destruct I.
Qed.
Print Assumptions C89_wildcard_refuted.

(** An attribute group of another schema: the names come from the schema of the type. *)
Definition c89_far_groups (g : nat) : option agroup := match g with 0 => Some (AGroup (Home 9 true) [at_ "a" UOptional None 10]) | _ => None end.
Definition c89_far := pair_of (CType hm BNone [CGroup 0]) (CType (Home 7 true) BNone [CGroup 0]).
Theorem C89_group_refuted :
  (exists rt rg, well_founded c89_far_groups c89_far rt rg) /\ valid c89_far_groups c89_far 0 /\ valid c89_far_groups c89_far 1 /\
  field_wrong c89_far_groups c89_far 0 (Field (Some 9, "a") 10 false None) [Field (None, "a") 10 false None] /\
  field_wrong c89_far_groups c89_far 1 (Field (Some 9, "a") 10 false None) [Field (Some 7, "a") 10 false None].
Proof.
  assert (W : well_founded c89_far_groups c89_far (fun t => t) (fun g => 0)) by wf.
  split; [eauto|]. split; [valid_by W|]. split; [valid_by W|].
  split; (eexists; split; [reflexivity|]; split; [|split; [intros I; each I; discriminate I|reflexivity]]).
  - apply (has_own _ _ 0 _ (Home 9 true, ADecl (NLocal "a") None UOptional None 10) eq_refl); [|discriminate].
    eapply in_group with (g := 0); [left; reflexivity|reflexivity|]. apply in_here. left. reflexivity.
  - apply (has_own _ _ 1 _ (Home 9 true, ADecl (NLocal "a") None UOptional None 10) eq_refl); [|discriminate].
    eapply in_group with (g := 0); [left; reflexivity|reflexivity|]. apply in_here. left. reflexivity.
Qed.
Print Assumptions C89_group_refuted.

(** A reference to an attribute, in a schema with unqualified attributes (the default): the field is unqualified. *)
Definition c89_ref := pair_of (CType hm BNone [CAttr (ADecl (NRef 8 "lang") None UOptional None 13)]) (CType hm BNone []).
Theorem C89_reference_refuted :
  (exists rt rg, well_founded no_groups c89_ref rt rg) /\ valid no_groups c89_ref 0 /\
  field_wrong no_groups c89_ref 0 (Field (Some 8, "lang") 13 false None) [Field (None, "lang") 13 false None].
Proof.
  assert (W : well_founded no_groups c89_ref (fun t => t) (fun g => 0)) by wf.
  split; [eauto|]. split; [valid_by W|].
  eexists. split; [reflexivity|]. split; [|split; [intros I; each I; discriminate I|reflexivity]].
  apply (has_own _ _ 0 _ (hm, ADecl (NRef 8 "lang") None UOptional None 13) eq_refl); [apply in_here; left; reflexivity|discriminate].
Qed.
Print Assumptions C89_reference_refuted.

(** A local unqualified attribute and a reference to the attribute of that name of the target namespace: the two become one. *)
Definition c89_merge := pair_of (CType hm BNone [at_ "a" UOptional None 10; CAttr (ADecl (NRef 7 "a") (Some true) URequired None 13)]) (CType hm BNone []).
Theorem C89_merged_refuted :
  (exists rt rg, well_founded no_groups c89_merge rt rg) /\ valid no_groups c89_merge 0 /\ in_one_schema no_groups c89_merge 0 /\
  has_use no_groups c89_merge 0 (Field (Some 7, "a") 13 true None) /\
  field_wrong no_groups c89_merge 0 (Field (None, "a") 10 false None) [Field (None, "a") 10 true None].
Proof.
  assert (W : well_founded no_groups c89_merge (fun t => t) (fun g => 0)) by wf.
  split; [eauto|]. split; [valid_by W|]. split; [schema_by W|]. split.
  - apply (has_own _ _ 0 _ (hm, ADecl (NRef 7 "a") (Some true) URequired None 13) eq_refl); [apply in_here; right; left; reflexivity|discriminate].
  - eexists. split; [reflexivity|]. split; [|split; [intros I; each I; discriminate I|reflexivity]].
    apply (has_own _ _ 0 _ (hm, ADecl (NLocal "a") None UOptional None 10) eq_refl); [apply in_here; left; reflexivity|discriminate].
Qed.
Print Assumptions C89_merged_refuted.

(** An extension that declares again what its base prohibits: the field has the old type. *)
Definition c89_again (t : nat) : option ctype :=
  match t with
  | 0 => Some (CType hm BNone [at_ "a" UOptional None 10])
  | 1 => Some (CType hm (BRestriction 0) [at_ "a" UProhibited None 10])
  | 2 => Some (CType hm (BExtension 1) [at_ "a" UOptional None 11])
  | _ => None
  end.
Theorem C89_declared_again_refuted :
  (exists rt rg, well_founded no_groups c89_again rt rg) /\ valid no_groups c89_again 2 /\ in_one_schema no_groups c89_again 2 /\
  field_wrong no_groups c89_again 2 (Field (None, "a") 11 false None) [Field (None, "a") 10 false None].
Proof.
  assert (W : well_founded no_groups c89_again (fun t => t) (fun g => 0)) by wf.
  split; [eauto|]. split; [|split; [schema_by W|]].
  - intros a ty A T. types_of A T W; (split; [intros x y X Y E; contents X W; contents Y W; reflexivity|]);
      intros b x u B X U; cbn in B; try discriminate B. injection B as <-.
    contents X W. intros E.
    inversion U as [? ty y T I AL|? ty b ? T B|? ty b ? T B _ N]; subst; cbn in T; injection T as <-; try discriminate B.
    + contents I W. destruct AL; reflexivity.
    + apply (N (hm, ADecl (NLocal "a") None UProhibited None 10)); [apply in_here; left; reflexivity|exact E].
  - eexists. split; [reflexivity|]. split; [|split; [intros I; each I; discriminate I|reflexivity]].
    apply (has_own _ _ 2 _ (hm, ADecl (NLocal "a") None UOptional None 11) eq_refl); [apply in_here; left; reflexivity|discriminate].
Qed.
Print Assumptions C89_declared_again_refuted.

(** Attribute groups that contain themselves (XML Schema 1.1 allows it): no type is made, the recursion does not end.  (The step
    before, C45, either rejects such groups or does not end itself.) *)
Definition c89_round (g : nat) : option agroup := match g with 0 => Some (AGroup hm [at_ "a" UOptional None 10; CGroup 0]) | _ => None end.
Definition c89_round_types := pair_of (CType hm BNone [CGroup 0]) (CType hm BNone []).
Theorem C89_circular_refuted :
  (forall u, has_use c89_round c89_round_types 0 u <-> u = Field (None, "a") 10 false None) /\
  (forall fuel, attributes_of c89_round c89_round_types fuel 0 = None).
Proof.
  assert (C : forall h c x, in_content c89_round h c x -> c = [CGroup 0] \/ c = [at_ "a" UOptional None 10; CGroup 0] /\ h = hm ->
    x = (hm, ADecl (NLocal "a") None UOptional None 10)).
  { induction 1 as [h l d I|h l g gr x I G F IH]; intros [->|[-> ->]]; each I; try discriminate I; injection I as <-; try reflexivity;
      injection G as <-; apply IH; right; split; reflexivity. }
  split.
  - intros u. split.
    + intros U. inversion U as [? ty x T I A|? ty b ? T B|? ty b ? T B]; subst; cbn in T; injection T as <-; try discriminate B.
      apply C in I; [|left; reflexivity]. subst x. reflexivity.
    + intros ->. apply (has_own _ _ 0 _ (hm, ADecl (NLocal "a") None UOptional None 10) eq_refl); [|discriminate].
      eapply in_group with (g := 0); [left; reflexivity|reflexivity|]. apply in_here. left. reflexivity.
  - assert (R : forall fuel h l, apply_content c89_round fuel h [at_ "a" UOptional None 10; CGroup 0] l = None).
    { induction fuel as [|fuel IH]; intros h l; [reflexivity|]. cbn [apply_content c89_round at_ g_content]. unfold at_ in IH. rewrite IH. reflexivity. }
    intros [|[|fuel]]; [reflexivity|reflexivity|]. cbn [attributes_of c89_round_types pair_of t_base t_home t_content apply_content c89_round g_content].
    rewrite R. reflexivity.
Qed.
Print Assumptions C89_circular_refuted.
