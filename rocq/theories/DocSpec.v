(** Valid documents of a schema and the values they stand for.  Independent of how the
    generated deserializers work; the notions about single content models are those of
    GenSpec. *)
From Verif Require Import Utf8 DocModel GenSpec TextSpec.
Local Open Scope string_scope.
Local Open Scope list_scope.

Section Valid.
  Context {T A : Type}.
  Notation val := (val T A).
  Variable blank : bytes -> option bool.
  Variable ff : flat_flags.
  Variable no_attrs : A.
  Variable attrs_of : nat -> dhelper -> bytes -> list attr -> outcome kind (A * dhelper).
  Variable parse : nat -> dhelper -> bytes -> outcome kind (T * dhelper).
  Variable charref : bytes -> option bytes.

  (** ** Values *)

  (** Without flattening a group is a struct with the one field [content]. *)
  Definition packed (c : compositor) (v : val) : val :=
    if flat_for ff c then v else VStruct no_attrs [[v]].

  Fixpoint all_some {X} (l : list (option X)) : option (list X) :=
    match l with
    | [] => Some []
    | Some x :: l' => match all_some l' with Some r => Some (x :: r) | None => None end
    | None :: _ => None
    end.
  Fixpoint first_some {X} (i : nat) (l : list (option X)) : option (nat * X) :=
    match l with
    | [] => None
    | Some x :: _ => Some (i, x)
    | None :: l' => first_some (S i) l'
    end.

  (** The value of a group without any element, if it may have none: for a choice it is
      the first alternative that may have none. *)
  Definition no_elements (c : compositor) (absent : list (option (list val))) : option val :=
    if is_choice c then
      match first_some 0 absent with Some (i, vals) => Some (VEnum i vals) | None => None end
    else
      match all_some absent with Some fields => Some (VStruct no_attrs fields) | None => None end.

  (** The values of a particle if there are no elements of it; none if it must have
      elements.  A choice that occurs exactly once and may have no elements is an
      [Option]. *)
  Definition once (min : nat) (max : max_occurs) : bool :=
    match min, max with 1, Bounded 1 => true | _, _ => false end.
  Fixpoint absent (p : particle) : option (list val) :=
    match p with
    | PElement min _ _ _ _ => if Nat.eqb min 0 then Some [] else None
    | PGroup min max c ps =>
        if Nat.eqb min 0 then Some []
        else match no_elements c (map absent ps) with
             | None => None
             | Some v => Some (if is_choice c && once min max then [] else repeat (packed c v) min)
             end
    end.

  (** ** Content *)

  Section Particles.
    (** The elements of a type. *)
    Variable reads : nat -> dhelper -> list event -> val -> dhelper -> Prop.

    Definition raw_lang (c : compositor) (ss : list (slot val)) : lang val :=
      Lang (first_of ss)
        (fun h evs v more h' =>
           ends_with_tag evs /\
           match c with
           | CSequence => exists fields, v = VStruct no_attrs fields /\
               l_occ (sequence_lang blank no_attrs ss) h evs (no_attrs, fields) more h'
           | CAll => exists fields, v = VStruct no_attrs fields /\
               l_occ (all_lang blank no_attrs ss) h evs (no_attrs, fields) more h'
           | CChoice => exists i vals, v = VEnum i vals /\
               l_occ (choice_lang blank ss) h evs (i, vals) more h'
           end).
    Definition group_lang (c : compositor) (ss : list (slot val)) : lang val :=
      Lang (first_of ss)
        (fun h evs v more h' => exists w, v = packed c w /\ l_occ (raw_lang c ss) h evs w more h').

    Fixpoint slot_of (p : particle) : slot val :=
      match p with
      | PElement min max ns name ty => Slot (element_lang (ns, name) (reads ty)) min max None
      | PGroup min max c ps =>
          let empty := no_elements c (map absent ps) in
          Slot (group_lang c (map slot_of ps))
            (match empty with Some _ => if is_choice c && once min max then 0 else min | None => min end)
            max
            (match empty with Some v => Some (packed c v) | None => None end)
      end.

    (** The content of a complex type. *)
    Definition content_slot (min : nat) (max : max_occurs) (c : compositor) (ps : list particle)
      : slot val :=
      Slot (raw_lang c (map slot_of ps)) min max (no_elements c (map absent ps)).
  End Particles.

  (** The type is written without a content type: its content occurs exactly once, and it
      is a choice and there are no attributes, or it is a sequence or [xs:all]. *)
  Definition direct (attributed : bool) (min : nat) (max : max_occurs) (c : compositor) : bool :=
    once min max && flat_for ff c && negb (is_choice c && attributed).

  (** The value of a complex type with these attributes and this content. *)
  Definition type_value (attributed : bool) (min : nat) (max : max_occurs) (c : compositor)
      (a : A) (vals : list val) (v : val) : Prop :=
    if direct attributed min max c then
      match vals with
      | [VStruct _ fields] => v = VStruct a fields
      | [w] => v = w
      | _ => False
      end
    else v = VStruct a [vals].

  Definition nothing_allowed (max : max_occurs) (ps : list particle) : bool :=
    match max, ps with
    | Bounded 0, _ | _, [] => true
    | _, _ => false
    end.

  Variable env : nat -> tdef.

  (** The events are an element of type [ty], nested at most [n] deep, with the value [v]. *)
  Fixpoint valid (n : nat) (ty : nat) (h : dhelper) (evs : list event) (v : val) (h' : dhelper) : Prop :=
    match n with
    | 0 => False
    | S n' =>
        match env ty with
        | TSimple => exists t, v = VText t /\
            text_of charref utf8_valid (fun h _ _ => Ok (tt, h)) (parse ty) h evs (tt, t) h'
        | TSimpleContent => exists a t, v = VSimple a t /\
            text_of charref utf8_valid (attrs_of ty) (parse ty) h evs (a, t) h'
        | TComplex attributed min max c ps =>
            element_of (attrs_of ty)
              (fun a h evs v h' =>
                 if nothing_allowed max ps then v = VStruct a [] /\ spaces blank h evs h'
                 else exists vals more,
                        repeated blank (content_slot (valid n') min max c ps) h evs vals more h' /\
                        type_value attributed min max c a vals v)
              h evs v h'
        end
    end.

  (** ** Schemas *)

  Definition bounds_ok (min : nat) (max : max_occurs) : bool :=
    match max with Bounded m => Nat.leb 1 m && Nat.leb min m | Unbounded => true end.

  (** The particle may be absent because of minimums that are zero; a choice has only one
      alternative. *)
  Fixpoint plainly_absent (p : particle) : bool :=
    match p with
    | PElement min _ _ _ _ => Nat.eqb min 0
    | PGroup min _ c ps =>
        Nat.eqb min 0 || (forallb plainly_absent ps && (negb (is_choice c) || Nat.eqb (length ps) 1))
    end.
  Definition plainly_empty (c : compositor) (ps : list particle) : bool :=
    forallb plainly_absent ps && (negb (is_choice c) || Nat.eqb (length ps) 1).
  Definition may_be_empty (c : compositor) (ps : list particle) : bool :=
    match no_elements c (map absent ps) with Some _ => true | None => false end.

  (** No particle has maximum zero, no group is without particles, and a group that may
      have no elements but must occur is plainly empty (or a choice that occurs once). *)
  Fixpoint tame (p : particle) : bool :=
    match p with
    | PElement min max _ _ _ => bounds_ok min max
    | PGroup min max c ps =>
        bounds_ok min max && match ps with [] => false | _ => true end && forallb tame ps &&
        (Nat.eqb min 0 || (is_choice c && once min max) || negb (may_be_empty c ps) || plainly_empty c ps)
    end.

  (** The same for types: their content has no exception for choices, and a choice that is
      written without a content type may not be empty. *)
  Definition tame_type (t : tdef) : bool :=
    match t with
    | TSimple | TSimpleContent => true
    | TComplex attributed min max c ps =>
        forallb tame ps &&
        (match max with Bounded 0 => Nat.eqb min 0 | _ => bounds_ok min max end) &&
        (negb (is_choice c) || match ps with [] => false | _ => true end) &&
        (Nat.eqb min 0 || negb (may_be_empty c ps) || plainly_empty c ps) &&
        negb (is_choice c && direct attributed min max c && may_be_empty c ps)
    end.

  (** ** Schemas whose deserializers never panic *)

  (** The group must occur a fixed number of times, more than once, and what is missing is
      filled up with empty groups. *)
  Definition filled_up (min : nat) (max : max_occurs) (c : compositor) (ps : list particle) : bool :=
    match max with Bounded m => Nat.eqb min m && Nat.leb 2 m | Unbounded => false end && plainly_empty c ps.
  Definition filled_group (p : particle) : bool :=
    match p with PElement _ _ _ _ _ => false | PGroup min max c ps => filled_up min max c ps end.
  Definition possible (max : max_occurs) : bool := match max with Bounded 0 => false | _ => true end.

  (** No maximum is zero, no group is without particles, and [xs:all] has no group that is
      filled up. *)
  Fixpoint steady (p : particle) : bool :=
    match p with
    | PElement _ max _ _ _ => possible max
    | PGroup _ max c ps =>
        possible max && match ps with [] => false | _ => true end && forallb steady ps &&
        match c with CAll => forallb (fun p => negb (filled_group p)) ps | _ => true end
    end.

  (** An alternative that is itself a choice, at most once, or filled up. *)
  Definition inner_choice (p : particle) : bool :=
    match p with
    | PGroup min max CChoice ps => match max with Bounded 1 => true | _ => filled_up min max CChoice ps end
    | _ => false
    end.

  (** For types, moreover: a choice that is written without a content type has no such
      alternative, and a choice with a content type is not filled up. *)
  Definition steady_type (t : tdef) : bool :=
    match t with
    | TSimple | TSimpleContent => true
    | TComplex attributed min max c ps =>
        forallb steady ps &&
        match c with
        | CSequence => true
        | CAll => forallb (fun p => negb (filled_group p)) ps
        | CChoice =>
            if direct attributed min max c then forallb (fun p => negb (inner_choice p)) ps
            else negb (filled_up min max c ps)
        end
    end.
End Valid.
