(** C100: different types of a schema are generated under different names. *)
From Coq Require Import List String Ascii Arith Bool.
From Verif Require Import BoxModel NsConstModel TypeNameModel TypeNameSpec TypeNameProofs.
Import ListNotations.
Local Open Scope string_scope.

(** With the default postfixes and each naming, with and without modules: no two items get
    the same name in the same module, neither two types nor the traits, contents and values
    that come with them, if no two types of a module have the same name and kinds with the
    same postfix, and no two enumerations the same name (for serde-xml-rs).
    Missing: names that are not in pascal case, names that end in one of the added words,
    types that are named by the user or after the type they refer to. *)
Theorem C100_distinct_partial : forall c v8 ts,
  (forall k, c_postfix c k = default_postfix k) ->
  (forall t, In t ts -> generated t = true -> fine c t) ->
  NoDup (map (fun t => (module_of c t, default_postfix (t_kind t), name_text (t_name t))) (filter generated ts)) ->
  (v8 = true -> NoDup (map (fun t => (module_of c t, name_text (t_name t))) (filter is_enum ts))) ->
  NoDup (flat_map (items c v8) ts).
Proof. exact distinct. Qed.

(** These types keep the names of the schema: the name and the postfix of the kind. *)
Theorem C100_name_partial : forall c t,
  (forall k, c_postfix c k = default_postfix k) -> fine c t ->
  type_ident c t = name_text (t_name t) ++ default_postfix (t_kind t).
Proof. intros c t P (G & N & D & O). exact (ident_is c t P G N D O). Qed.

(** Two types of the same kind, with any postfixes: they get the same name only if they have
    the same name in the schema or, with the default naming, if one is named like the other
    with the postfix. *)
Theorem C100_same_kind_partial : forall c t1 t2, t_kind t1 = t_kind t2 ->
  (forall t, t = t1 \/ t = t2 -> good_name (c_naming c) (name_text (t_name t)) /\
     good_name (c_naming c) (name_text (t_name t) ++ c_postfix c (t_kind t)) /\ t_display t = None /\ own_name c t) ->
  type_ident c t1 = type_ident c t2 ->
  name_text (t_name t1) = name_text (t_name t2) \/
  (c_naming c = Default /\
   (name_text (t_name t1) = name_text (t_name t2) ++ c_postfix c (t_kind t1) \/
    name_text (t_name t2) = name_text (t_name t1) ++ c_postfix c (t_kind t1))).
Proof. exact same_kind. Qed.

(** With the default naming, a type without a name of its own that refers to a type named in
    the schema has the name of that type and [List], if the type may occur more than once, or
    [Opt], if it may be missing and occurs at most once: two such types have the same name
    only if they refer to types of the same name, both repeatedly or both optionally. *)
Theorem C100_reference_partial : forall c t1 t2 n1 n2 x1 x2 min1 min2 max1 max2,
  c_naming c = Default ->
  t_display t1 = None -> t_variant t1 = VReference (Named n1) min1 max1 -> t_name t1 = Generated x1 -> good_name Default n1 ->
  t_display t2 = None -> t_variant t2 = VReference (Named n2) min2 max2 -> t_name t2 = Generated x2 -> good_name Default n2 ->
  (above_one max1 = true \/ min1 = 0) -> (above_one max2 = true \/ min2 = 0) ->
  (type_ident c t1 = n1 ++ "List" \/ type_ident c t1 = n1 ++ "Opt") /\
  (type_ident c t1 = type_ident c t2 <-> n1 = n2 /\ above_one max1 = above_one max2).
Proof.
  intros c t1 t2 n1 n2 x1 x2 min1 min2 max1 max2 N D1 V1 X1 G1 D2 V2 X2 G2 R1 R2.
  destruct (reference_is c t1 n1 x1 min1 max1 N D1 V1 X1 G1) as [L1 O1].
  destruct (reference_is c t2 n2 x2 min2 max2 N D2 V2 X2 G2) as [L2 O2].
  assert (C : forall a b, a ++ "List" = b ++ "Opt" -> False).
  { intros a b E. destruct (append_split _ _ _ _ E) as [(x & _ & F)|(x & _ & F)];
      destruct x as [|? [|? [|? [|? [|? ?]]]]]; discriminate F. }
  destruct (above_one max1) eqn:A1, (above_one max2) eqn:A2;
    try (destruct R1 as [R1|R1]; [discriminate R1|]); try (destruct R2 as [R2|R2]; [discriminate R2|]).
  - rewrite (L1 eq_refl), (L2 eq_refl). split; [left; reflexivity|].
    split; [intros E; split; [exact (append_cancel _ _ _ E)|reflexivity]|intros [-> _]; reflexivity].
  - rewrite (L1 eq_refl), (O2 eq_refl R2). split; [left; reflexivity|].
    split; [intros E; destruct (C _ _ E)|intros [_ E]; discriminate E].
  - rewrite (O1 eq_refl R1), (L2 eq_refl). split; [right; reflexivity|].
    split; [intros E; symmetry in E; destruct (C _ _ E)|intros [_ E]; discriminate E].
  - rewrite (O1 eq_refl R1), (O2 eq_refl R2). split; [right; reflexivity|].
    split; [intros E; split; [exact (append_cancel _ _ _ E)|reflexivity]|intros [-> _]; reflexivity].
Qed.
Print Assumptions C100_reference_partial.

(** With modules for the namespaces, types of namespaces whose modules differ do not clash;
    with modules for the schema files, neither do types of different files of a namespace
    with more than one. *)
Theorem C100_modules : forall c v8 t1 t2 i1 i2, In i1 (items c v8 t1) -> In i2 (items c v8 t2) ->
  (c_ns_modules c = true -> forall n1 n2, t_ns t1 = Some n1 -> t_ns t2 = Some n2 -> n1 <> n2 -> i1 <> i2) /\
  (c_schema_modules c = true -> t_ns t1 = t_ns t2 -> 2 <= t_schema_count t1 -> t_schema_count t2 = t_schema_count t1 ->
   forall n1 n2, t_schema t1 = Some n1 -> t_schema t2 = Some n2 -> n1 <> n2 -> i1 <> i2).
Proof.
  intros c v8 t1 t2 i1 i2 H1 H2. pose proof (items_module _ _ _ _ H1) as M1. pose proof (items_module _ _ _ _ H2) as M2.
  split.
  - intros C n1 n2 E1 E2 N E. apply N. rewrite E, M2 in M1. unfold module_of in M1.
    rewrite C, E1, E2 in M1. cbn [app] in M1. injection M1 as M _. symmetry. exact M.
  - intros C EN L EC n1 n2 E1 E2 N E. apply N. rewrite E, M2 in M1. unfold module_of in M1.
    rewrite C, EN, EC, E1, E2 in M1. apply Nat.ltb_lt in L. rewrite L in M1. cbn [andb] in M1.
    apply app_inv_head in M1. injection M1 as M. symmetry. exact M.
Qed.
Print Assumptions C100_modules.
Example C100_module_case :
  let c := default_config Default true true in
  let a := TypeInfo (Some "p") (Some "f") 2 KType (Named "Foo") None VOther in
  let b := TypeInfo (Some "p") (Some "g") 2 KType (Named "Foo") None VOther in
  items c false a = [(["p"; "f"], "FooType")] /\ items c false b = [(["p"; "g"], "FooType")] /\
  type_ident c (TypeInfo None None 1 KType (Generated "A1") None (VReference (Named "Foo") 0 (Bounded 1))) = "FooOpt" /\
  type_ident c (TypeInfo None None 1 KType (Generated "A2") None (VReference (Named "Foo") 0 Unbounded)) = "FooList".
Proof. vm_compute. repeat split. Qed.

(** Types are put into a module only if the user asks for it, and into that of a schema file
    only if the namespace has more than one. *)
Theorem C100_no_modules : forall c v8 t i, In i (items c v8 t) ->
  (c_ns_modules c = false -> c_schema_modules c = false \/ t_schema_count t <= 1 -> fst i = []) /\
  (c_ns_modules c = true -> c_schema_modules c = false \/ t_schema_count t <= 1 ->
   fst i = match t_ns t with Some n => [n] | None => [] end) /\
  (c_ns_modules c = false -> c_schema_modules c = true -> 2 <= t_schema_count t ->
   fst i = match t_schema t with Some n => [n] | None => [] end).
Proof.
  intros c v8 t i H. rewrite (items_module _ _ _ _ H). unfold module_of.
  assert (F : c_schema_modules c = false \/ t_schema_count t <= 1 -> c_schema_modules c && Nat.ltb 1 (t_schema_count t) = false).
  { intros [-> | L]; [reflexivity|]. apply Nat.ltb_ge in L. rewrite L. apply andb_false_r. }
  split; [|split].
  - intros -> X. rewrite (F X). reflexivity.
  - intros -> X. rewrite (F X). apply app_nil_r.
  - intros -> -> L. apply Nat.ltb_lt in L. rewrite L. reflexivity.
Qed.
Print Assumptions C100_no_modules.

(** No name is one of the keywords, whatever the naming and the names the user gives. *)
Theorem C100_keywords : forall c t, ~ In (type_ident c t) keyword_names.
Proof. intros c t. apply ident_not_keyword. Qed.
Print Assumptions C100_keywords.

Print Assumptions C100_distinct_partial.
Print Assumptions C100_name_partial.
Print Assumptions C100_same_kind_partial.

Ltac clash := vm_compute; let H := fresh in intro H;
  repeat match goal with
  | H : NoDup (_ :: _) |- _ => inversion H; clear H; subst
  end;
  match goal with H : ~ In _ _ |- _ => solve [apply H; cbn; auto 8] end.
Ltac none := let H := fresh in intro H; cbn in H; repeat (destruct H as [H|H]; [discriminate H|]); destruct H.
Ltac differ := vm_compute; repeat (apply NoDup_cons; [none|]); apply NoDup_nil.

(** Types Foo and FooType: both are FooType. *)
Theorem C100_postfix_refuted : exists ts, NoDup (map identity ts) /\
  (forall t, In t ts -> t_kind t = KType /\ good_name Default (name_text (t_name t))) /\
  ~ NoDup (flat_map (items (default_config Default true true) false) ts).
Proof.
  exists [a_type KType "Foo" VOther; a_type KType "FooType" VOther]. split; [differ|]. split; [|clash].
  intros t [<-|[<-|[]]]; (split; [reflexivity|]; split; [split; [reflexivity|none]|reflexivity]).
Qed.

(** Types whose names differ in case or punctuation only, for both namings if names are
    unified. *)
Theorem C100_case_refuted : forall n, n <> Explicit false ->
  ~ NoDup (flat_map (items (default_config n true true) false) [a_type KType "foo" VOther; a_type KType "Foo" VOther]) /\
  ~ NoDup (flat_map (items (default_config n true true) false) [a_type KType "a.b" VOther; a_type KType "a-b" VOther]) /\
  ~ NoDup (flat_map (items (default_config n true true) false) [a_type KType "fooBar" VOther; a_type KType "foo_bar" VOther]).
Proof. intros [|[]] H; [| |congruence]; repeat split; clash. Qed.

(** If names are not unified, those that differ in punctuation still clash. *)
Theorem C100_punctuation_refuted :
  ~ NoDup (flat_map (items (default_config (Explicit false) true true) false) [a_type KType "a.b" VOther; a_type KType "a-b" VOther]).
Proof. clash. Qed.

(** An element FooType and a type Foo; an element and an attribute with the same name, which
    have types of their own; a dynamic type and an element that others may substitute. *)
Theorem C100_kind_refuted : forall n,
  ~ NoDup (flat_map (items (default_config n true true) false) [a_type KElement "FooType" VOther; a_type KType "Foo" VOther]) /\
  ~ NoDup (flat_map (items (default_config n true true) false) [a_type KElement "Foo" VOther; a_type KAttribute "Foo" VEnumeration]) /\
  ~ NoDup (flat_map (items (default_config n true true) false)
      [a_type KSubstitutionElement "Foo" (VReference (Named "Foo") 1 (Bounded 1)); a_type KDynamicVariant "Foo" (VComplex false)]).
Proof. intros [|[]]; repeat split; clash. Qed.

(** Without modules for the namespaces, which is the default: a type of the same name in two
    namespaces. *)
Theorem C100_namespace_refuted : forall n, exists ts, NoDup (map identity ts) /\
  (forall t, In t ts -> t_kind t = KType /\ t_name t = Named "Foo") /\
  ~ NoDup (flat_map (items (default_config n false false) false) ts).
Proof.
  intros n. exists [TypeInfo (Some "p") None 1 KType (Named "Foo") None VOther; TypeInfo (Some "q") None 1 KType (Named "Foo") None VOther].
  split; [differ|]. split; [|destruct n as [|[]]; clash]. intros t [<-|[<-|[]]]; split; reflexivity.
Qed.

(** The type of the content of a type, and the trait of a dynamic type. *)
Theorem C100_content_refuted : forall n,
  ~ NoDup (flat_map (items (default_config n true true) false) [a_type KElement "FooTypeContent" VOther; a_type KType "Foo" (VComplex true)]) /\
  ~ NoDup (flat_map (items (default_config n true true) false) [a_type KElement "FooTypeTrait" VOther; a_type KType "Foo" VDynamic]).
Proof. intros [|[]]; split; clash. Qed.

(** Two types without a name that repeat the same type, with the default naming. *)
Theorem C100_list_refuted : exists ts, NoDup (map identity ts) /\
  NoDup (map (fun t => name_text (t_name t)) ts) /\
  ~ NoDup (flat_map (items (default_config Default true true) false) ts).
Proof.
  exists [TypeInfo None None 1 KType (Generated "A1") None (VReference (Named "Foo") 0 Unbounded);
          TypeInfo None None 1 KType (Generated "B2") None (VReference (Named "Foo") 2 (Bounded 5))].
  split; [differ|]. split; [differ|clash].
Qed.

(** Two enumerations, one for the type Foo and one for the element Foo, with the renderer for
    serde-xml-rs 0.8; the same types do not clash otherwise. *)
Theorem C100_values_refuted : forall n, exists ts, NoDup (map identity ts) /\
  NoDup (flat_map (items (default_config n true true) false) ts) /\
  ~ NoDup (flat_map (items (default_config n true true) true) ts).
Proof.
  intros n. exists [a_type KType "Foo" VEnumeration; a_type KElementType "Foo" VEnumeration].
  split; [differ|]. split; [destruct n as [|[]]; differ|destruct n as [|[]]; clash].
Qed.

Print Assumptions C100_postfix_refuted.
Print Assumptions C100_case_refuted.
Print Assumptions C100_punctuation_refuted.
Print Assumptions C100_kind_refuted.
Print Assumptions C100_namespace_refuted.
Print Assumptions C100_content_refuted.
Print Assumptions C100_list_refuted.
Print Assumptions C100_values_refuted.

(** * A case that meets the hypotheses *)
Definition ex_types : list type_info :=
  [a_type KType "Person" (VComplex true); a_type KElement "Person" (VReference (Named "Person") 1 (Bounded 1));
   a_type KElementType "Person" VEnumeration; a_type KType "HomeAddress2" VDynamic;
   a_type KNillableContent "Person" VOther; a_type KDynamicVariant "HomeAddress2" (VComplex false);
   TypeInfo None None 1 KType (Generated "Unnamed12") None (VReference (Generated "Unnamed13") 0 Unbounded);
   TypeInfo (Some "other") None 1 KType (Named "Person") None VEnumeration;
   a_type KBuildIn "String" VForeign].

Example C100_case_hypotheses : forall n,
  (forall t, In t ex_types -> generated t = true -> fine (default_config n true false) t) /\
  NoDup (map (fun t => (module_of (default_config n true false) t, default_postfix (t_kind t), name_text (t_name t)))
    (filter generated ex_types)) /\
  NoDup (map (fun t => (module_of (default_config n true false) t, name_text (t_name t))) (filter is_enum ex_types)).
Proof.
  intros n. split; [|split].
  - assert (A : forall s, added_end s = false -> ~ ends_in_added_word s).
    { intros s H (w & r & W & ->). assert (T : added_end (r ++ w) = true); [|congruence].
      apply existsb_exists. exists w. split; [exact W|]. apply ends_with_iff. exists r. reflexivity. }
    intros t T G. cbn in T. repeat destruct T as [<-|T]; try destruct T; try discriminate G;
      (split; [|split; [apply A; reflexivity|split; [reflexivity|intros _; exact Logic.I]]]);
      (split; [split; [reflexivity|none]|destruct n as [|[]]; reflexivity || exact Logic.I]).
  - destruct n as [|[]]; differ.
  - destruct n as [|[]]; differ.
Qed.

Example C100_case_items : flat_map (items (default_config Default true false) true) ex_types =
  [([], "PersonType"); ([], "PersonTypeContent"); ([], "Person"); ([], "PersonElementType"); ([], "PersonValue");
   ([], "HomeAddress2Type"); ([], "HomeAddress2TypeTrait"); ([], "PersonNotNil"); ([], "HomeAddress2Dyn");
   ([], "Unnamed12Type"); (["other"], "PersonType"); (["other"], "PersonValue")].
Proof. reflexivity. Qed.

Example C100_case_same_kind : forall t, t = a_type KType "Foo" VOther \/ t = a_type KType "Bar" VOther ->
  good_name (Explicit true) (name_text (t_name t)) /\
  good_name (Explicit true) (name_text (t_name t) ++ default_postfix (t_kind t)) /\ t_display t = None /\
  own_name (default_config (Explicit true) true true) t.
Proof.
  intros t [-> | ->]; (split; [|split; [|split; [reflexivity|discriminate]]]);
    (split; [split; [reflexivity|none]|reflexivity]).
Qed.
