(** Independent specification of the type of an element (XML Schema 1.1, part 1, 3.3.4 and 3.3.6). *)
From Verif Require Import SerHelperModel DeModel DeSpec TextModel TextSpec TagSpec DynModel.
Local Open Scope string_scope.

Section Instance.
  (** Numeric character references. *)
  Variable charref : bytes -> option bytes.
  (** The elements around, the last is the element itself: its tag and its attributes. *)
  Variables (els : list (bytes * list attr)) (n : bytes) (attrs : list attr).

  (** Attributes with prefix are in the namespace that the prefix stands for. *)
  Definition xsi_type_attribute (a : attr) : Prop :=
    exists p, split_colon (fst a) = Some (p, "type") /\ stands_for els p XSI_NS.

  (** The value of [xsi:type] is a name, with references and blanks around it. *)
  Definition states_type (x : option bytes * bytes) : Prop :=
    exists a t v, In a attrs /\ xsi_type_attribute a /\
      unescape charref (snd a) = Some t /\ trimmed_of t v /\ expanded els v x.
  Definition states_no_type : Prop := forall a, In a attrs -> ~ xsi_type_attribute a.

  (** An element declared with the name [elem] and a dynamic type: its type is the one that
      [xsi:type] names; without such an attribute it is the declared one. *)
  Definition type_entry (d : dtype) (elem : option bytes * bytes) (y : dentry) : Prop :=
    In y (t_entries d) /\ y_kind y = DynType /\ expanded els n elem /\
    (states_type (y_ns y, y_name y) \/ states_no_type /\ y_concrete y = true).
  (** In its place there may be an element of its substitution group. *)
  Definition element_entry (d : dtype) (y : dentry) : Prop :=
    In y (t_entries d) /\ y_kind y = DynElement /\ expanded els n (y_ns y, y_name y).
  Definition denoted (d : dtype) (elem : option bytes * bytes) (y : dentry) : Prop :=
    type_entry d elem y \/ ((forall z, ~ type_entry d elem z) /\ element_entry d y).

  (** ** Where the code is right *)

  (** A name that is compared with the given ones: without prefix, it is one of them
      if it looks like it. *)
  Definition clear_name (v : bytes) (names : list (option bytes * bytes)) : Prop :=
    match split_colon v with
    | Some (p, _) => p <> "xmlns"
    | None => forall ns, In (ns, v) names -> expanded els v (ns, v)
    end.
  Definition entry_names (k : dyn_kind) (d : dtype) : list (option bytes * bytes) :=
    flat_map (fun y => match k, y_kind y with
                       | DynType, DynType | DynElement, DynElement => [(y_ns y, y_name y)]
                       | _, _ => []
                       end) (t_entries d).

  (** Attributes have distinct names; none is called [type] without prefix; there is one
      [xsi:type] at most, its value has neither references nor blanks. *)
  Definition clear_attributes (d : dtype) : Prop :=
    NoDup (map fst attrs) /\ ~ In "type" (map fst attrs) /\
    (forall a, In a attrs -> forall p l, split_colon (fst a) = Some (p, l) -> p = "xmlns" -> l <> "type") /\
    (forall a b, In a attrs -> In b attrs -> xsi_type_attribute a -> xsi_type_attribute b -> a = b) /\
    forall a, In a attrs -> xsi_type_attribute a ->
      ~ In "&"%char (list_ascii_of_string (snd a)) /\ trimmed_of (snd a) (snd a) /\
      clear_name (snd a) (entry_names DynType d).
  Definition clear_instance (d : dtype) : Prop :=
    clear_name n ((t_ns d, t_name d) :: entry_names DynElement d) /\ clear_attributes d.
End Instance.

(** Names have no colon; entries of the same kind have distinct names; one type at most is
    the declared one, and no type before it has its local name. *)
Definition plain_dynamic (d : dtype) : Prop :=
  split_colon (t_name d) = None /\
  (forall y, In y (t_entries d) -> split_colon (y_name y) = None) /\
  (forall y z, In y (t_entries d) -> In z (t_entries d) -> y_kind y = y_kind z ->
     y_ns y = y_ns z -> y_name y = y_name z -> y = z) /\
  (forall before y after z, t_entries d = (before ++ y :: after)%list -> y_kind y = DynType -> y_concrete y = true ->
     In z before -> y_kind z = DynType -> y_name z <> y_name y) /\
  (forall y z, In y (t_entries d) -> In z (t_entries d) -> y_kind y = DynType -> y_kind z = DynType ->
     y_concrete y = true -> y_concrete z = true -> y = z).

(** ** Writing *)

(** What is assumed of the serializers of the types: the first event is the tag of the element,
    with the given name or that of the type; no attribute is called [type]. *)
Definition writes_tag {V S} (mk : nat -> V -> option bytes -> bool -> outcome kind S) (next : ser_next S)
  (own : nat -> bytes) : Prop :=
  forall ty x name root s, mk ty x name root = Ok s -> forall h e s' h', next s h = (Some (Ok e), s', h') ->
  exists a, (let n := match name with Some n => n | None => own ty end in e = EStart n a \/ e = EEmpty n a) /\
    NoDup (map fst a) /\
    forall k, In k (map fst a) -> k <> "type" /\ forall p, split_colon k <> Some (p, "type").

(** The names in use stand for what they are written for, in the element that is written;
    an identifier is that of one Rust type. *)
Definition tag_for (els : list (bytes * list attr)) (tag : bytes) (x : option bytes * bytes)
  (names : list (option bytes * bytes)) : Prop := expanded els tag x /\ clear_name els tag names.
Definition plain_tags (own : nat -> bytes) (els : list (bytes * list attr)) (d : dtype) (name : option bytes) : Prop :=
  let tags := (t_ns d, t_name d) :: entry_names DynElement d in
  stands_for els "xsi" XSI_NS /\
  (forall y z, In y (t_entries d) -> In z (t_entries d) -> y_meta y = y_meta z -> y_target y = y_target z) /\
  tag_for els (match name with Some n => n | None => t_tag d end) (t_ns d, t_name d) tags /\
  forall y, In y (t_entries d) ->
    match y_kind y with
    | DynType =>
        (y_concrete y = true <-> (y_ns y, y_name y) = (t_ns d, t_name d)) /\
        tag_for els (own (y_target y)) (y_ns y, y_name y) (entry_names DynType d) /\
        (y_concrete y = true -> clear_name els (own (y_target y)) tags) /\
        ~ In "&"%char (list_ascii_of_string (own (y_target y))) /\ trimmed_of (own (y_target y)) (own (y_target y))
    | DynElement =>
        tag_for els (y_tag y) (y_ns y, y_name y) tags /\
        ((y_ns y, y_name y) = (t_ns d, t_name d) -> forall z, In z (t_entries d) -> y_kind z <> DynType)
    | DynOther => True
    end.

(** The element is read by the type of the value. *)
Definition read_by {V D} (types : nat -> deser V D) (d : dtype) (h : dhelper) (e : event) (ty : nat) : Prop :=
  de_init (dyn_deser types d) h e = box_out ty (de_init (types ty) h e).
