(** C99: what a type named in the configuration refers to. *)
From Verif Require Import QuadProofs CacheProps.
From Verif Require NodeModel RedefModel.
Import ListNotations.
Local Open Scope string_scope.

(** C99: a name in which a colon follows a prefix means the namespace with this prefix; one
    without a colon means no namespace. *)
Theorem C99_written t :
  (forall p n, ~ In ":"%char (list_ascii_of_string p) -> quad_of_str t (p ++ String ":" n) = Quad (Some (NPrefix p)) None n t) /\
  (forall n, ~ In ":"%char (list_ascii_of_string n) -> quad_of_str t n = Quad None None n t).
Proof.
  split; intros; unfold quad_of_str; [rewrite split_colon_app by assumption|rewrite split_colon_none by assumption]; reflexivity.
Qed.
Print Assumptions C99_written.

(** C99: a type in a namespace the schemas have is looked up in this namespace; an error is only
    reported if there is no such namespace. *)
Theorem C99_namespace resolver parse comps s q : loads resolver parse s ->
  (forall ns, means_namespace s (q_ns q) ns -> exists k, quad_resolve comps s q = Ok (TIdent ns k (Named (q_name q)) (q_type q))) /\
  (forall e, quad_resolve comps s q = Err e -> forall ns, ~ means_namespace s (q_ns q) ns) /\
  quad_resolve comps s q <> Panic.
Proof.
  intros L. apply loads_coherent in L. unfold quad_resolve. split; [|split].
  - intros ns M. apply (means_ok s L) in M as (-> & _). eauto.
  - intros e. destruct (quad_ns s (q_ns q)) as [ns|x|] eqn:E; try discriminate. intros _. exact (means_err s L _ _ E).
  - pose proof (quad_ns_ok s (q_ns q)). destruct (quad_ns s (q_ns q)); congruence.
Qed.
Print Assumptions C99_namespace.

(** C99: a prefix or URI the schemas do not have is reported as such. *)
Theorem C99_no_namespace resolver parse comps s q : loads resolver parse s ->
  (forall p, q_ns q = Some (NPrefix p) -> resolve_prefix s p = None -> quad_resolve comps s q = Err (UnknownPrefix p)) /\
  (forall u, q_ns q = Some (NNamespace u) -> (forall ns, ~ means_namespace s (q_ns q) ns) ->
     quad_resolve comps s q = Err (UnknownNamespace u)) /\
  (q_ns q = None \/ q_ns q = Some NAnonymous -> (forall ns, ~ means_namespace s (q_ns q) ns) ->
     quad_resolve comps s q = Err NoAnonymous).
Proof.
  intros L. apply loads_coherent in L. unfold quad_resolve. split; [|split].
  - intros p -> E. cbn [quad_ns]. rewrite E. reflexivity.
  - intros u -> N. cbn [quad_ns means_namespace] in *. destruct (resolve_namespace s (Some u)) as [k|] eqn:E; [|reflexivity].
    apply (co_uri s L) in E. destruct (N k E).
  - intros [->| ->] N; cbn [quad_ns means_namespace] in *; destruct (resolve_namespace s None) as [k|] eqn:E; try reflexivity;
      apply (co_uri s L) in E; destruct (N k E).
Qed.
Print Assumptions C99_no_namespace.

(** C99: a type the generator is told not to generate is found if there is only one type with the
    kind, the name and the namespace asked for, whichever schema it is in. *)
Theorem C99_types_partial resolver parse comps s o added q ns t : loads resolver parse s ->
  any_order_of o -> added_fits s added -> means_namespace s (q_ns q) ns -> q_schema q = None ->
  exists_type comps s added t -> asked_for q ns t ->
  (forall u, exists_type comps s added u -> asked_for q ns u -> same_type u t) ->
  (ti_schema t = id_unknown -> ~ single s ns) ->
  config_type comps o s added q = Ok (ti_with_name t (Named (q_name q))).
Proof. intros L. exact (types_found comps s (loads_coherent _ _ _ L) added o q ns t). Qed.
Print Assumptions C99_types_partial.

(** C99: ... and the name is rejected if there is none. *)
Theorem C99_unknown resolver parse comps s o added q ns : loads resolver parse s ->
  any_order_of o -> added_fits s added -> means_namespace s (q_ns q) ns ->
  (forall t, exists_type comps s added t -> ~ asked_for q ns t) ->
  exists k, config_type comps o s added q = Err (ECache (UnknownType (TIdent ns k (Named (q_name q)) (q_type q)))).
Proof. intros L. exact (types_unknown comps s (loads_coherent _ _ _ L) added o q ns). Qed.
Print Assumptions C99_unknown.

(** C99: the types to generate are the ones meant, if each is the only one at the top of a schema
    with its name, or its namespace has only one schema. *)
Theorem C99_generate_partial resolver parse comps s known qs ts : loads resolver parse s ->
  Forall2 (refers_to comps s) qs ts -> (forall t, In t ts -> In t known) ->
  config_generate comps s known qs = Ok ts.
Proof. intros L. exact (generate_ok comps s (loads_coherent _ _ _ L) known qs ts). Qed.
Print Assumptions C99_generate_partial.

(** C99: ... and the first one that is not a type of the generator is rejected. *)
Theorem C99_generate_unknown resolver parse comps s known qs q qs' ts t : loads resolver parse s ->
  Forall2 (refers_to comps s) qs ts -> (forall u, In u ts -> In u known) ->
  refers_to comps s q t -> ~ In t known ->
  config_generate comps s known (qs ++ q :: qs') = Err (EGenerator t).
Proof.
  intros L F KN R N. apply loads_coherent in L. induction F as [|x u qs ts X F IH]; cbn [app config_generate].
  - rewrite (refers_resolved comps s L q t R). destruct (in_dec tident_eq_dec t known) as [I|I]; [contradiction|reflexivity].
  - rewrite (refers_resolved comps s L x u X). destruct (in_dec tident_eq_dec u known) as [I|I]; cbn [is_left].
    + rewrite IH; [reflexivity|]. intros w W. apply KN. right. exact W.
    + destruct I. apply KN. left. reflexivity.
Qed.
Print Assumptions C99_generate_unknown.

(** C99: under the same condition exactly the types meant are made dynamic. *)
Theorem C99_dynamic_partial resolver parse comps s qs ts : loads resolver parse s ->
  Forall2 (refers_to comps s) qs ts ->
  exists l, config_dynamic comps s qs = Ok l /\ forall t, is_dynamic l t = true <-> In t ts.
Proof.
  intros L R. exists ts. split; [exact (dynamic_ok comps s (loads_coherent _ _ _ L) qs ts R)|].
  intros t. unfold is_dynamic. destruct (in_dec tident_eq_dec t ts); cbn; split; auto; discriminate.
Qed.
Print Assumptions C99_dynamic_partial.

(** C99: with a schema, given by its number or by a name or location only it has, the type of this
    schema is meant, also if others have a type of this name. *)
Theorem C99_schema_partial resolver parse comps s o added q x ns t : loads resolver parse s ->
  any_order_of o -> added_fits s added -> means_namespace s (q_ns q) ns ->
  q_schema q = Some x -> means_schema s x (ti_schema t) -> ti_schema t <> id_unknown ->
  exists_type comps s added t -> asked_for q ns t ->
  quad_resolve comps s q = Ok (ti_with_name t (Named (q_name q))) /\
  config_type comps o s added q = Ok (ti_with_name t (Named (q_name q))).
Proof.
  intros L O A M Q MS NZ T AF. pose proof (loads_coherent _ _ _ L) as CO.
  split; [|exact (schema_types_found comps s CO added o q x ns t O A M Q MS NZ T AF)].
  rewrite (schema_resolved comps s CO q x ns _ M Q MS). destruct AF as (A1 & _ & A3). unfold ti_with_name. congruence.
Qed.
Print Assumptions C99_schema_partial.

(** C99: an identifier of a named type means this type. *)
Theorem C99_ident_partial comps s t : named t -> quad_resolve comps s (quad_of_ident t) = Ok t.
Proof. intros (n & N). destruct t as [a b c d]. cbn in N. subst c. reflexivity. Qed.
Print Assumptions C99_ident_partial.

(** A schema that redefines the type T of another one, and includes a third one. *)
Definition no_part : NodeModel.part := NodeModel.PInside [].
Definition ex_comps (d : schema_doc) : list RedefModel.content :=
  if String.eqb (sd_rest d) "main" then
    [RedefModel.CRedefine 2 [(NodeModel.NComplexType, "T", no_part)]; RedefModel.CInclude 3;
     RedefModel.CComponent (NodeModel.NElement, "Root", no_part)]
  else if String.eqb (sd_rest d) "base" then
    [RedefModel.CComponent (NodeModel.NComplexType, "T", no_part); RedefModel.CComponent (NodeModel.NAttribute, "lang", no_part)]
  else if String.eqb (sd_rest d) "code" then [RedefModel.CComponent (NodeModel.NSimpleType, "Code", no_part)]
  else [RedefModel.CComponent (NodeModel.NSimpleType, "Other", no_part)].
Definition ex_parse (t : string) : option schema_doc :=
  Some (SchemaDoc (Some (if String.eqb t "other" then "urn:b" else "urn:a"))
    (if String.eqb t "main" then [CRedefine "base"; CInclude "code"; CImport (Some "other") (Some "urn:b")] else [])
    (if String.eqb t "main" then [(Some "urn:a", ["a"]); (Some "urn:b", ["b"])] else []) t).
Definition ex_resolver (r : request) : outcome unit (option (option string * string * string)) :=
  let l := rq_location r in
  Ok (Some (Some (if String.eqb l "other" then "code" else l), "file:/" ++ l, l)).
Definition ex_schemas : schemas := Eval vm_compute in
  match parser_run ex_resolver ex_parse 20 [OpUrl "main"; OpAnonymous] parser_new with
  | Some (Ok p) => match parser_finish (fun l => l) p with Ok s => s | _ => schemas_new end
  | _ => schemas_new
  end.
Lemma ex_loads : loads ex_resolver ex_parse ex_schemas.
Proof.
  exists 20, [OpUrl "main"; OpAnonymous], (fun l => l). eexists. split; [intros [[=]|[[=]|[]]]|].
  split; [vm_compute; reflexivity|]. vm_compute. reflexivity.
Qed.
Example C99_case_schemas :
  map (fun x => (fst x, si_name (snd x), si_namespace (snd x))) (sm_schemas ex_schemas) =
    [(1, Some "main", 2); (2, Some "base", 2); (3, Some "code", 2); (4, Some "code", 3)] /\
  map (fun x => (fst x, ni_namespace (snd x), ni_schemas (snd x))) (sm_infos ex_schemas) =
    [(1, None, []); (2, Some "urn:a", [1; 2; 3]); (3, Some "urn:b", [4])] /\
  resolve_prefix ex_schemas "a" = Some 2 /\ resolve_prefix ex_schemas "b" = Some 3.
Proof. vm_compute. auto. Qed.
Definition ex_added : list tident := [TIdent 1 0 (Named "string") ITBuildIn; TIdent 2 0 (Named "Custom") ITType; TIdent 2 1 (Generated "Root") ITElementType].

Lemma ex_coherent : coherent ex_schemas.
Proof. exact (loads_coherent _ _ _ ex_loads). Qed.
Lemma ex_fits : added_fits ex_schemas ex_added.
Proof.
  intros t T. cbn in T. repeat destruct T as [<-|T]; try destruct T; [left; reflexivity|left; reflexivity|right].
  eexists. split; vm_compute; reflexivity.
Qed.
(** All types of the example. *)
Ltac all_types H :=
  match type of H with exists_type _ _ ?a ?t =>
    let X := fresh in pose proof (proj2 (history_inserted ex_comps ex_schemas ex_coherent a t) H) as X; clear H; vm_compute in X;
    repeat match type of X with _ \/ _ => destruct X as [X|X] end; first [contradiction|discriminate X|injection X as <-]
  end.

(** The hypotheses of the theorems are met: types found through a prefix, in a schema that is not
    the first, in a redefining schema, and added by the user. *)
Example C99_case_types :
  let o := ex_order in
  config_type ex_comps o ex_schemas ex_added (quad_of_str ITType "a:Code") = Ok (TIdent 2 3 (Named "Code") ITType) /\
  config_type ex_comps o ex_schemas ex_added (quad_of_str ITAttribute "a:lang") = Ok (TIdent 2 2 (Named "lang") ITAttribute) /\
  config_type ex_comps o ex_schemas ex_added (quad_of_str ITType "a:Custom") = Ok (TIdent 2 0 (Named "Custom") ITType) /\
  config_type ex_comps o ex_schemas ex_added (Quad None None "string" ITBuildIn) = Ok (TIdent 1 0 (Named "string") ITBuildIn) /\
  config_type ex_comps o ex_schemas ex_added (Quad (Some (NNamespace "urn:b")) None "Other" ITType) = Ok (TIdent 3 4 (Named "Other") ITType) /\
  config_type ex_comps o ex_schemas ex_added (Quad (Some (NPrefix "a")) (Some (SName "main")) "T" ITType) = Ok (TIdent 2 1 (Named "T") ITType) /\
  config_type ex_comps o ex_schemas ex_added (Quad (Some (NPrefix "a")) (Some (SLocation "file:/base")) "T" ITType) = Ok (TIdent 2 2 (Named "T") ITType).
Proof. vm_compute. repeat split. Qed.
Example C99_case_hypotheses :
  let q := quad_of_str ITAttribute "a:lang" in let t := TIdent 2 2 (Named "lang") ITAttribute in
  loads ex_resolver ex_parse ex_schemas /\ any_order_of ex_order /\ added_fits ex_schemas ex_added /\
  means_namespace ex_schemas (q_ns q) 2 /\ q_schema q = None /\ exists_type ex_comps ex_schemas ex_added t /\ asked_for q 2 t /\
  (forall u, exists_type ex_comps ex_schemas ex_added u -> asked_for q 2 u -> same_type u t) /\
  (ti_schema t = id_unknown -> ~ single ex_schemas 2).
Proof.
  cbn zeta. split; [exact ex_loads|]. split; [exact ex_order_any|]. split; [exact ex_fits|].
  split; [split; [reflexivity|eexists; vm_compute; reflexivity]|]. split; [reflexivity|]. split; [|split; [|split]].
  - refine (proj1 (history_inserted ex_comps ex_schemas ex_coherent ex_added _) _). vm_compute; repeat (first [left; reflexivity|right]).
  - repeat split.
  - intros u U (A1 & A2 & A3). all_types U; try (vm_compute in A1; discriminate A1); try (vm_compute in A2; discriminate A2). repeat split.
  - discriminate.
Qed.
Example C99_case_generate :
  Forall2 (refers_to ex_comps ex_schemas) [quad_of_str ITElement "a:Root"; quad_of_str ITType "a:Code"; quad_of_str ITType "b:Other"]
    [TIdent 2 1 (Named "Root") ITElement; TIdent 2 3 (Named "Code") ITType; TIdent 3 4 (Named "Other") ITType].
Proof.
  assert (TOP : forall u, top_type ex_comps ex_schemas u -> exists_type ex_comps ex_schemas [] u) by (intros u U; left; now apply top_exists).
  apply Forall2_cons; [|apply Forall2_cons; [|apply Forall2_cons; [|constructor]]].
  - split; [reflexivity|]. split; [split; [reflexivity|eexists; vm_compute; reflexivity]|]. split; [repeat split|]. split.
    + eexists _, NodeModel.NElement, "Root". split; [vm_compute; reflexivity|]. split; [reflexivity|]. split; [|auto].
      left. exists no_part. vm_compute; repeat (first [left; reflexivity|right]).
    + left. split; [|split; [auto|]].
      * eexists _, NodeModel.NElement, "Root". split; [vm_compute; reflexivity|]. split; [reflexivity|]. split; [|auto].
        exists no_part. vm_compute; repeat (first [left; reflexivity|right]).
      * intros u U (A1 & A2 & A3). apply TOP in U. all_types U; try (vm_compute in A1; discriminate A1); try (vm_compute in A2; discriminate A2). reflexivity.
  - split; [reflexivity|]. split; [split; [reflexivity|eexists; vm_compute; reflexivity]|]. split; [repeat split|]. split.
    + eexists _, NodeModel.NSimpleType, "Code". split; [vm_compute; reflexivity|]. split; [reflexivity|]. split; [|auto].
      left. exists no_part. vm_compute; repeat (first [left; reflexivity|right]).
    + left. split; [|split; [auto|]].
      * eexists _, NodeModel.NSimpleType, "Code". split; [vm_compute; reflexivity|]. split; [reflexivity|]. split; [|auto].
        exists no_part. vm_compute; repeat (first [left; reflexivity|right]).
      * intros u U (A1 & A2 & A3). apply TOP in U. all_types U; try (vm_compute in A1; discriminate A1); try (vm_compute in A2; discriminate A2). reflexivity.
  - split; [reflexivity|]. split; [split; [reflexivity|eexists; vm_compute; reflexivity]|]. split; [repeat split|]. split.
    + eexists _, NodeModel.NSimpleType, "Other". split; [vm_compute; reflexivity|]. split; [reflexivity|]. split; [|auto].
      left. exists no_part. vm_compute; repeat (first [left; reflexivity|right]).
    + right. eexists _, 4. split; vm_compute; reflexivity.
Qed.

(** C99 fails if two schemas of a namespace define the type: one is taken, without an error.  For a
    redefined type it is the one that was redefined. *)
Theorem C99_ambiguous_refuted : exists resolver parse comps s o added q ns t u,
  loads resolver parse s /\ any_order_of o /\ added_fits s added /\ means_namespace s (q_ns q) ns /\ q_schema q = None /\
  schema_type comps s t /\ asked_for q ns t /\ schema_type comps s u /\ asked_for q ns u /\ ~ same_type t u /\
  config_type comps o s added q = Ok t /\ config_generate comps s [t; u] [q] = Ok [t].
Proof.
  exists ex_resolver, ex_parse, ex_comps, ex_schemas, ex_order, ex_added, (quad_of_str ITType "a:T"), 2,
    (TIdent 2 2 (Named "T") ITType), (TIdent 2 1 (Named "T") ITType).
  split; [exact ex_loads|]. split; [exact ex_order_any|]. split; [exact ex_fits|].
  split; [split; [reflexivity|eexists; vm_compute; reflexivity]|]. split; [reflexivity|]. split; [|split; [|split; [|split; [|split; [|split]]]]].
  - eexists _, NodeModel.NComplexType, "T". split; [vm_compute; reflexivity|]. split; [reflexivity|]. split; [|auto].
    left. exists no_part. vm_compute; repeat (first [left; reflexivity|right]).
  - repeat split.
  - eexists _, NodeModel.NComplexType, "T". split; [vm_compute; reflexivity|]. split; [reflexivity|]. split; [|auto].
    right. eexists _, _, no_part. split; [left; vm_compute; left; reflexivity|]. left. reflexivity.
  - repeat split.
  - intros (_ & E & _). discriminate E.
  - vm_compute. reflexivity.
  - vm_compute. reflexivity.
Qed.
Print Assumptions C99_ambiguous_refuted.

(** C99 fails for a redefined type that is to be dynamic: the type that takes its place is not. *)
Theorem C99_dynamic_refuted : exists resolver parse comps s q ns u l,
  loads resolver parse s /\ means_namespace s (q_ns q) ns /\ q_schema q = None /\
  schema_type comps s u /\ asked_for q ns u /\ config_dynamic comps s [q] = Ok l /\ is_dynamic l u = false.
Proof.
  exists ex_resolver, ex_parse, ex_comps, ex_schemas, (quad_of_str ITType "a:T"), 2, (TIdent 2 1 (Named "T") ITType).
  eexists. split; [exact ex_loads|].
  split; [split; [reflexivity|eexists; vm_compute; reflexivity]|]. split; [reflexivity|]. split; [|split; [|split]].
  - eexists _, NodeModel.NComplexType, "T". split; [vm_compute; reflexivity|]. split; [reflexivity|]. split; [|auto].
    right. eexists _, _, no_part. split; [left; vm_compute; left; reflexivity|]. left. reflexivity.
  - repeat split.
  - vm_compute. reflexivity.
  - vm_compute. reflexivity.
Qed.
Print Assumptions C99_dynamic_refuted.

(** C99 fails for the types to generate: one that is the only one of its name, that the
    interpreter knows and that would be found otherwise, is reported as unknown. *)
Theorem C99_generate_refuted : exists resolver parse comps s o added q ns t,
  loads resolver parse s /\ any_order_of o /\ added_fits s added /\ means_namespace s (q_ns q) ns /\ q_schema q = None /\
  schema_type comps s t /\ asked_for q ns t /\
  (forall u, exists_type comps s added u -> asked_for q ns u -> u = t) /\
  config_type comps o s added q = Ok t /\
  exists x, config_generate comps s [t] [q] = Err (EGenerator x).
Proof.
  exists ex_resolver, ex_parse, ex_comps, ex_schemas, ex_order, ex_added, (quad_of_str ITAttribute "a:lang"), 2, (TIdent 2 2 (Named "lang") ITAttribute).
  split; [exact ex_loads|]. split; [exact ex_order_any|]. split; [exact ex_fits|].
  split; [split; [reflexivity|eexists; vm_compute; reflexivity]|]. split; [reflexivity|]. split; [|split; [|split; [|split]]].
  - eexists _, NodeModel.NAttribute, "lang". split; [vm_compute; reflexivity|]. split; [reflexivity|]. split; [|auto].
    left. exists no_part. vm_compute; repeat (first [left; reflexivity|right]).
  - repeat split.
  - intros u U (A1 & A2 & A3). all_types U; try (vm_compute in A1; discriminate A1); try (vm_compute in A2; discriminate A2). reflexivity.
  - vm_compute. reflexivity.
  - eexists. vm_compute. reflexivity.
Qed.
Print Assumptions C99_generate_refuted.

(** C99 fails for the name of a schema: if no schema has it, it is ignored. *)
Theorem C99_schema_refuted : exists resolver parse comps s o added q n t,
  loads resolver parse s /\ any_order_of o /\ added_fits s added /\ q_schema q = Some (SName n) /\
  (forall k i, get k (sm_schemas s) = Some i -> si_name i <> Some n) /\
  config_type comps o s added q = Ok t.
Proof.
  exists ex_resolver, ex_parse, ex_comps, ex_schemas, ex_order, ex_added, (Quad (Some (NPrefix "a")) (Some (SName "typo")) "Code" ITType), "typo".
  eexists. split; [exact ex_loads|]. split; [exact ex_order_any|]. split; [exact ex_fits|]. split; [reflexivity|]. split; [|vm_compute; reflexivity].
  intros k i G. apply (CacheProofs.get_in _ _ _ (co_keys _ ex_coherent)) in G. vm_compute in G.
  repeat match type of G with _ \/ _ => destruct G as [G|G] end; first [contradiction|injection G as <- <-; discriminate].
Qed.
Print Assumptions C99_schema_refuted.

(** ... and if two have it, only the first is searched, even if it is in another namespace. *)
Theorem C99_schema_name_refuted : exists resolver parse comps s o added q ns n t i e,
  loads resolver parse s /\ any_order_of o /\ added_fits s added /\ means_namespace s (q_ns q) ns /\ q_schema q = Some (SName n) /\
  schema_type comps s t /\ asked_for q ns t /\ get (ti_schema t) (sm_schemas s) = Some i /\ si_name i = Some n /\
  config_type comps o s added q = Err e.
Proof.
  exists ex_resolver, ex_parse, ex_comps, ex_schemas, ex_order, ex_added, (Quad (Some (NPrefix "b")) (Some (SName "code")) "Other" ITType), 3, "code",
    (TIdent 3 4 (Named "Other") ITType). eexists. eexists.
  split; [exact ex_loads|]. split; [exact ex_order_any|]. split; [exact ex_fits|].
  split; [split; [reflexivity|eexists; vm_compute; reflexivity]|]. split; [reflexivity|]. split; [|split; [|split; [|split]]].
  - eexists _, NodeModel.NSimpleType, "Other". split; [vm_compute; reflexivity|]. split; [reflexivity|]. split; [|auto].
    left. exists no_part. vm_compute; repeat (first [left; reflexivity|right]).
  - repeat split.
  - vm_compute. reflexivity.
  - reflexivity.
  - vm_compute. reflexivity.
Qed.
Print Assumptions C99_schema_name_refuted.

(** C99 fails for a type that was added without a schema to a namespace with a single one. *)
Theorem C99_added_refuted : exists resolver parse comps s o added q ns t e,
  loads resolver parse s /\ any_order_of o /\ added_fits s added /\ means_namespace s (q_ns q) ns /\ q_schema q = None /\
  In t added /\ asked_for q ns t /\ (forall u, exists_type comps s added u -> asked_for q ns u -> u = t) /\
  config_type comps o s added q = Err e.
Proof.
  exists ex_resolver, ex_parse, ex_comps, ex_schemas, ex_order, [TIdent 3 0 (Named "Extra") ITType], (quad_of_str ITType "b:Extra"), 3,
    (TIdent 3 0 (Named "Extra") ITType). eexists.
  split; [exact ex_loads|]. split; [exact ex_order_any|]. split; [intros t [<-|[]]; left; reflexivity|].
  split; [split; [reflexivity|eexists; vm_compute; reflexivity]|]. split; [reflexivity|]. split; [left; reflexivity|].
  split; [repeat split|]. split; [|vm_compute; reflexivity].
  intros u U (A1 & A2 & A3). all_types U; try (vm_compute in A1; discriminate A1); try (vm_compute in A2; discriminate A2). reflexivity.
Qed.
Print Assumptions C99_added_refuted.

(** C99 fails for the identifier of a type whose name was generated: it means another type. *)
Theorem C99_ident_refuted : exists comps s t u, quad_resolve comps s (quad_of_ident t) = Ok u /\ u <> t.
Proof.
  exists ex_comps, ex_schemas, (TIdent 2 1 (Generated "Root") ITElementType), (TIdent 2 1 (Named "Root") ITElementType).
  split; [reflexivity|discriminate].
Qed.
Print Assumptions C99_ident_refuted.

Example C99_case_no_namespace :
  resolve_prefix ex_schemas "c" = None /\
  quad_resolve ex_comps ex_schemas (quad_of_str ITType "c:T") = Err (UnknownPrefix "c") /\
  quad_resolve ex_comps ex_schemas (Quad (Some (NNamespace "urn:c")) None "T" ITType) = Err (UnknownNamespace "urn:c").
Proof. vm_compute. auto. Qed.
