(** Independent specification of the attributes of an element. *)
From Verif Require Import AttrModel.
Local Open Scope string_scope.

(** [xmlns="..."] and [xmlns:p="..."] are no attributes of the element. *)
Definition declares_namespace (k : bytes) : Prop := k = "xmlns" \/ exists p, k = "xmlns:" ++ p.

(** Namespaces in XML 1.0, 6.2: an attribute without prefix has no namespace, also if
    there is a default namespace; a prefix stands for the namespace it is bound to. *)
Definition named (r : resolver) (k : bytes) (n : option bytes * bytes) : Prop :=
  match split_colon k with
  | None => n = (None, k)
  | Some (_, l) => exists u, fst (resolve r k false) = RBound u /\ n = (Some u, l)
  end.

(** The attributes that every element may have. *)
Definition instance_attribute (r : resolver) (k : bytes) : Prop :=
  exists l, In l ["schemaLocation"; "noNamespaceSchemaLocation"; "type"; "nil"] /\ named r k (Some XSI_NS, l).

Definition allows (w : wildcard) (ns : option bytes) : Prop :=
  match w with
  | WAny => True
  | WOther t => ns <> None /\ ns <> t
  | WOnly l => In ns l
  end.

(** [m]: the elements of [l] that satisfy [P], in their order. *)
Inductive selects {A} (P : A -> Prop) : list A -> list A -> Prop :=
| selects_nil : selects P [] []
| selects_keep x l m : P x -> selects P l m -> selects P (x :: l) (x :: m)
| selects_drop x l m : ~ P x -> selects P l m -> selects P (x :: l) m.

Section Spec.
  Context {V : Type}.
  Variable parse : nat -> resolver -> bytes -> option V.
  Variable charref : bytes -> option bytes.
  Variable utf8_ok : bytes -> bool.
  Variable form_default any_support : bool.

  (** XML Schema 1.0, 3.2.2: an attribute has the target namespace if it is global or
      qualified, and no namespace otherwise. *)
  Definition declared_name (a : sattr V) : option bytes * bytes :=
    if sa_ref a then (sa_ns a, sa_name a)
    else if match sa_form a with Some f => f | None => form_default end then (sa_ns a, sa_name a)
    else (None, sa_name a).

  (** Whether the generated type has a field for a declaration. *)
  Definition has_field (d : sdecl V) : bool :=
    match d with
    | SAttribute a => match sa_use a with UProhibited => false | _ => true end
    | SWildcard _ => any_support
    end.

  (** The attribute [x] is an occurrence of [a], its text is one of [v]. *)
  Definition carries (r : resolver) (a : sattr V) (x : attr) : Prop :=
    ~ declares_namespace (fst x) /\ named r (fst x) (declared_name a).
  Definition has_text (r : resolver) (a : sattr V) (x : attr) (v : V) : Prop :=
    utf8_ok (snd x) = true /\ exists t, unescape charref (snd x) = Some t /\ parse (sa_type a) r t = Some v.

  (** The attributes that [l] declares, the other attributes of the element. *)
  Definition declares (l : list (sdecl V)) (a : sattr V) : Prop := In (SAttribute a) l /\ sa_use a <> UProhibited.
  Definition undeclared (l : list (sdecl V)) (r : resolver) (x : attr) : Prop :=
    ~ declares_namespace (fst x) /\ forall a, declares l a -> ~ carries r a x.

  (** The value of the field of a declaration. *)
  Definition field_value (l : list (sdecl V)) (r : resolver) (attrs : list attr) (d : sdecl V) (s : slot V) : Prop :=
    match d, s with
    | SAttribute a, FValue o =>
        (exists x v, In x attrs /\ carries r a x /\ (forall y, In y attrs -> carries r a y -> y = x) /\
           has_text r a x v /\ (forall w, sa_fixed a = Some w -> v = w) /\ o = Some v) \/
        ((forall x, In x attrs -> ~ carries r a x) /\ sa_use a <> URequired /\
           o = match sa_fixed a with Some w => Some w | None => sa_default a end)
    | SWildcard _, FAny m => selects (undeclared l r) attrs m
    | _, _ => False
    end.

  (** An element may have these attributes, and [slots] are the values of the fields. *)
  Definition valid (l : list (sdecl V)) (r : resolver) (attrs : list attr) (slots : list (slot V)) : Prop :=
    NoDup (map fst attrs) /\
    Forall2 (field_value l r attrs) (filter has_field l) slots /\
    forall x, In x attrs -> undeclared l r x ->
      instance_attribute r (fst x) \/ exists w n, In (SWildcard w) l /\ named r (fst x) n /\ allows w (fst n).

  (** ** Where the code is right *)

  (** Declarations: names are distinct, nothing is fixed, there is one wildcard at
      most and it admits all namespaces. *)
  Definition plain_declarations (l : list (sdecl V)) : Prop :=
    (forall i j a b, i <> j -> nth_error l i = Some (SAttribute a) -> nth_error l j = Some (SAttribute b) ->
       sa_use a <> UProhibited -> sa_use b <> UProhibited -> declared_name a <> declared_name b) /\
    (forall a, declares l a -> sa_fixed a = None /\ (sa_use a = URequired -> sa_default a = None)) /\
    (forall i j w u, nth_error l i = Some (SWildcard w) -> nth_error l j = Some (SWildcard u) -> i = j /\ w = WAny).

  (** An attribute without prefix has the local name of unqualified declarations only; an
      attribute with a prefix has the local name of no unqualified declaration of the same
      namespace, and of no declaration without namespace. *)
  Definition clear (r : resolver) (k : bytes) (a : sattr V) : Prop :=
    match split_colon k with
    | None => k = sa_name a -> fst (declared_name a) = None
    | Some (_, l) => l = sa_name a ->
        named r k (declared_name a) \/ sa_ns a <> None /\ ~ named r k (sa_ns a, sa_name a)
    end.
  Definition clear_document (l : list (sdecl V)) (r : resolver) (attrs : list attr) : Prop :=
    forall x, In x attrs -> ~ declares_namespace (fst x) ->
      (exists n, named r (fst x) n) /\ forall a, declares l a -> clear r (fst x) a.

  (** ** Writing *)

  (** The values of the Rust types: only optional attributes without default may have no
      value; the keys of other attributes are distinct. *)
  Definition holds (d : sdecl V) (s : slot V) : Prop :=
    match d, s with
    | SAttribute a, FValue None => sa_use a = UOptional /\ sa_default a = None
    | SAttribute a, FValue (Some _) => True
    | SWildcard _, FAny m => NoDup (map fst m)
    | _, _ => False
    end.

  (** The key of an attribute that is written. *)
  Definition written_key (a : sattr V) : bytes :=
    if match sa_form a with Some f => f | None => form_default end then
      match sa_prefix a with Some p => p ++ ":" ++ sa_name a | None => sa_name a end
    else sa_name a.

  (** The scope in which [a] is read names what was written. *)
  Definition names_back (r : resolver) (a : sattr V) : Prop :=
    ~ declares_namespace (written_key a) /\ named r (written_key a) (declared_name a).

  (** What is needed to read a field again: its attribute has its name, its text is a text
      of its value; other attributes are not those of a declaration. *)
  Variable render : nat -> V -> option (option bytes).
  Definition reads_back (l : list (sdecl V)) (r : resolver) (d : sdecl V) (s : slot V) : Prop :=
    match d, s with
    | SAttribute a, FValue (Some v) =>
        names_back r a /\
        exists t, render (sa_type a) v = Some (Some t) /\ utf8_ok (escape t) = true /\ parse (sa_type a) r t = Some v
    | SWildcard _, FAny m => forall x, In x m -> undeclared l r x
    | _, _ => True
    end.
End Spec.
