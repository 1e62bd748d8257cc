(** The namespaces that a value needs, collected when it is written in the mode
    [Dynamic]: xsd-parser/src/pipeline/renderer/steps/quick_xml/collect_namespaces.rs and
    xsd-parser-types/src/quick_xml/serialize.rs 659-750.
    Not modelled: [Nillable], dynamic types and references rendered as new types. *)
From Verif Require Import WriteModel DocSpec.
Local Open Scope string_scope.
Local Open Scope list_scope.

Section Collect.
  Context {T A : Type}.
  Notation val := (val T A).
  Variable ff : flat_flags.
  Variable cfg : wconfig.
  Variable env : nat -> tdef.

  (** collect_namespaces.rs 333-351 [TagName::render_collect_namespace]: nothing without a
      prefix; the caller checks that the name is qualified. *)
  Definition with_prefix (ns : bytes) : list (option bytes * bytes) :=
    match wc_prefix cfg ns with Some p => [(Some p, ns)] | None => [] end.

  (** collect_namespaces.rs 241-245 [render_collect_own_namespace]. *)
  Definition own_namespace (ty : nat) : list (option bytes * bytes) :=
    match wc_type_ns cfg ty with
    | Some ns => if wc_type_qualified cfg ty then with_prefix ns else []
    | None => []
    end.
  (** collect_namespaces.rs 247-262 [render_collect_attribute_namespaces]: all attributes of
      the type, [wc_attr_ns] are the namespaces of the qualified ones. *)
  Definition attribute_namespaces (ty : nat) : list (option bytes * bytes) :=
    flat_map with_prefix (wc_attr_ns cfg ty).

  (** The generated types: of an element, of a group, and the struct or enum with the
      particles themselves. *)
  Inductive ctype : Type :=
  | CElement (ty : nat)
  | CGroup (c : compositor) (ps : list particle)
  | CContent (ps : list particle).
  Definition ctype_of (p : particle) : ctype :=
    match p with PElement _ _ _ _ ty => CElement ty | PGroup _ _ c ps => CGroup c ps end.

  (** collect_namespaces.rs 64-70, 127-140 (types without elements: nothing), 171-200
      (enums: the own namespace, then the value of the variant), 202-239 (structs: the own
      namespace, the attributes, then the content or the fields), 264-313 (the values of a
      field). *)
  Fixpoint collect_namespaces (t : ctype) (v : val) {struct v} : list (option bytes * bytes) :=
    let content ps :=
      match v with
      | VStruct _ fields =>
          (fix go (ps : list particle) (fields : list (list val)) {struct fields} :=
             match fields, ps with
             | vals :: fields', p :: ps' => flat_map (collect_namespaces (ctype_of p)) vals ++ go ps' fields'
             | _, _ => []
             end) ps fields
      | VEnum i vals =>
          match nth_error ps i with
          | Some p => flat_map (collect_namespaces (ctype_of p)) vals
          | None => []
          end
      | _ => []
      end in
    let inside ps :=
      match v with
      | VStruct _ fields => flat_map (flat_map (collect_namespaces (CContent ps))) fields
      | _ => []
      end in
    match t with
    | CElement ty =>
        match env ty with
        | TSimple => []
        | TSimpleContent => own_namespace ty ++ attribute_namespaces ty
        | TComplex attributed min max c ps =>
            if nothing_allowed max ps then own_namespace ty ++ attribute_namespaces ty
            else if direct ff attributed min max c then
              own_namespace ty ++ (if is_choice c then [] else attribute_namespaces ty) ++ content ps
            else own_namespace ty ++ attribute_namespaces ty ++ inside ps
        end
    | CGroup c ps => if flat_for ff c then content ps else inside ps
    | CContent ps => content ps
    end.

  (** [CollectNamespaces::collect_namespaces] of the type of an element. *)
  Definition collect (ty : nat) (v : val) : list (option bytes * bytes) := collect_namespaces (CElement ty) v.
End Collect.
