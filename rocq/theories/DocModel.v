(** Whole schemas: the deserializers generated for all types of a schema, connected with
    each other.  The single state machines are those of GenModel; this file chooses the
    machine for every type and group and hands it the machines of its elements.

    Simplifications: types are numbered; the groups inside a type are written down where
    they are used (in the code each group is a type of its own, named after the place
    where it is used; groups that contain themselves are not allowed in XML Schema);
    particles with maximum zero, [xs:any], dynamic types, [xsi:type], nillable elements
    and mixed content are left out; what is known of attributes is the function that
    reads them from a start tag. *)
From Verif Require Export GenModel.
Local Open Scope string_scope.
Local Open Scope list_scope.

(** models/meta/type_.rs 56-70 [MetaTypeVariant::All], [Choice], [Sequence]. *)
Inductive compositor : Type := CSequence | CChoice | CAll.
Definition is_choice (c : compositor) : bool := match c with CChoice => true | _ => false end.

(** models/meta/element.rs 20-100 [ElementMeta] with [ElementMode::Element] or
    [ElementMode::Group]: bounds, and namespace, name and type of the element, or the
    group. *)
Inductive particle : Type :=
| PElement (min : nat) (max : max_occurs) (ns : option bytes) (name : bytes) (ty : nat)
| PGroup (min : nat) (max : max_occurs) (c : compositor) (ps : list particle).

Definition p_min (p : particle) : nat :=
  match p with PElement min _ _ _ _ | PGroup min _ _ _ => min end.
Definition p_max (p : particle) : max_occurs :=
  match p with PElement _ max _ _ _ | PGroup _ max _ _ => max end.

(** A type: a simple type, a complex type with simple content, or a complex type
    (models/meta/complex.rs 15-50 [ComplexMeta]): whether it has attributes, the bounds of
    its content, and the content. *)
Inductive tdef : Type :=
| TSimple
| TSimpleContent
| TComplex (attributed : bool) (min : nat) (max : max_occurs) (c : compositor) (ps : list particle).

(** config/generator.rs 138-153 [FLATTEN_STRUCT_CONTENT], [FLATTEN_ENUM_CONTENT]. *)
Record flat_flags : Type := FlatFlags { ff_struct : bool; ff_enum : bool }.
Definition flat_for (ff : flat_flags) (c : compositor) : bool :=
  if is_choice c then ff_enum ff else ff_struct ff.

(** ** Particles that may be absent *)

(** generator/data/complex.rs 884-905 [check_element], 872-883 [check_type]. *)
Fixpoint check_element (p : particle) : bool :=
  Nat.eqb (p_min p) 0 ||
  match p with
  | PElement _ _ _ _ _ => false
  | PGroup _ _ c ps =>
      if is_choice c then existsb check_element ps else forallb check_element ps
  end.

(** generator/data/complex.rs 637-641, 870-910: [Single] becomes [Optional]. *)
Definition lowered (p : particle) : bool :=
  match p with
  | PElement _ _ _ _ _ => false
  | PGroup _ _ c ps => is_choice c && existsb check_element ps
  end.

(** deserialize.rs 4483-4496 [is_defaultable_element], 4532-4562 [make_new_entry]. *)
Fixpoint defaultable_element (p : particle) : bool :=
  Nat.eqb (p_min p) 0 ||
  match p with
  | PElement _ _ _ _ _ => false
  | PGroup _ _ c ps =>
      if is_choice c then Nat.eqb (length ps) 1 && forallb defaultable_element ps
      else forallb defaultable_element ps
  end.
Definition defaultable_group (c : compositor) (ps : list particle) : bool :=
  if is_choice c then Nat.eqb (length ps) 1 && forallb defaultable_element ps
  else forallb defaultable_element ps.

Section Types.
  (** Values of simple types, and of the attributes of a type. *)
  Context {T A : Type}.

  (** Values of the generated types: of a simple type, a struct with attributes and a
      text, a struct with attributes and a list of values for every field, an enum. *)
  Inductive val : Type :=
  | VText (t : T)
  | VSimple (a : A) (t : T)
  | VStruct (a : A) (fields : list (list val))
  | VEnum (i : nat) (vals : list val).

  (** Deserializers of the generated types. *)
  Inductive dst : Type :=
  | DText (d : bytes)
  | DSimple (d : tdes (A:=A))
  | DEmpty (a : A)
  | DSequence (d : sdes (V:=val) (D:=dst) (A:=A))
  | DAll (d : ldes (V:=val) (D:=dst) (A:=A))
  | DChoice (d : estate (V:=val) (D:=dst))
  | DContent (d : cdes (V:=val) (D:=dst) (A:=A)).

  (** A deserializer as one of the common type. *)
  Section Lift.
    Context {W E : Type}.
    Variable inj : W -> val.
    Variable up : E -> dst.
    Variable down : dst -> option E.

    Definition lift_art (art : artifact W E) : artifact val dst :=
      match art with ANone => ANone | AData w => AData (inj w) | ADes d => ADes (up d) end.
    Definition lift_result (r : dresult W E) : dresult val dst :=
      let* (out, h) := r in Ok (DOut (lift_art (o_art out)) (o_ev out) (o_any out), h).
    Definition lift (d : deser W E) : deser val dst :=
      Deser (fun h e => lift_result (de_init d h e))
            (fun st h e => match down st with Some s => lift_result (de_next d s h e) | None => Panic end)
            (fun st h => match down st with
                         | Some s => let* (w, h') := de_finish d s h in Ok (inj w, h')
                         | None => Panic
                         end).
  End Lift.

  Definition lift_text : deser T bytes -> deser val dst :=
    lift VText DText (fun d => match d with DText d => Some d | _ => None end).
  Definition lift_simple : deser (A * T) tdes -> deser val dst :=
    lift (fun v => VSimple (fst v) (snd v)) DSimple (fun d => match d with DSimple d => Some d | _ => None end).
  Definition lift_empty : deser A A -> deser val dst :=
    lift (fun a => VStruct a []) DEmpty (fun d => match d with DEmpty d => Some d | _ => None end).
  Definition lift_sequence : deser (A * list (list val)) sdes -> deser val dst :=
    lift (fun v => VStruct (fst v) (snd v)) DSequence (fun d => match d with DSequence d => Some d | _ => None end).
  Definition lift_all : deser (A * list (list val)) ldes -> deser val dst :=
    lift (fun v => VStruct (fst v) (snd v)) DAll (fun d => match d with DAll d => Some d | _ => None end).
  Definition lift_choice : deser (nat * list val) estate -> deser val dst :=
    lift (fun v => VEnum (fst v) (snd v)) DChoice (fun d => match d with DChoice d => Some d | _ => None end).
  (** The struct around a content type has one field. *)
  Definition lift_content : deser (A * list val) cdes -> deser val dst :=
    lift (fun v => VStruct (fst v) [snd v]) DContent (fun d => match d with DContent d => Some d | _ => None end).

  Variable ff : flat_flags.
  Variable no_attrs : A.
  (** The attributes of a type: [from_bytes_start] of its deserializer. *)
  Variable attrs_of : nat -> dhelper -> bytes -> list attr -> outcome kind (A * dhelper).
  (** [deserialize_bytes] of the simple types. *)
  Variable parse : nat -> dhelper -> bytes -> outcome kind (T * dhelper).
  Variable charref : bytes -> option bytes.
  Variable utf8_ok : bytes -> bool.

  Definition any_attrs : dhelper -> bytes -> list attr -> outcome kind (A * dhelper) :=
    fun h _ _ => Ok (no_attrs, h).

  (** ** Groups *)

  Notation mem := (member val dst).

  (** The type of a group, or the content type of a complex type; [dfl]: it is defaultable
      (generator/data/complex.rs 209-505). *)
  Definition raw_group (c : compositor) (dfl : bool) (ms : list mem) : deser val dst :=
    match c with
    | CSequence => lift_sequence (seq_deser any_attrs false no_attrs false false ms)
    | CAll => lift_all (all_deser any_attrs false no_attrs false ms)
    | CChoice => lift_choice (enum_deser any_attrs false false false dfl ms)
    end.
  (** deserialize.rs 1988-2013, 1101-1117 [Default::default]. *)
  Definition raw_new (c : compositor) (ms : list mem) : dst :=
    match c with
    | CSequence => DSequence (seq_new ms no_attrs)
    | CAll => DAll (all_new ms no_attrs)
    | CChoice => DChoice EInit
    end.
  Definition raw_default (c : compositor) (dfl : bool) (ms : list mem)
    : option (dhelper -> outcome kind (val * dhelper)) :=
    if dfl then Some (de_finish (raw_group c dfl ms) (raw_new c ms)) else None.

  (** The content of a type as its only element (generator/data/complex.rs 317-335,
      470-488). *)
  Definition content_member (min : nat) (max : max_occurs) (c : compositor) (dfl : bool)
      (ms : list mem) : mem :=
    Member "" None KindGroup min max false false (raw_default c dfl ms) (raw_group c dfl ms).

  (** Without flattening the type of a group is a struct around its content type. *)
  Definition group_deser (c : compositor) (dfl : bool) (ms : list mem) : deser val dst :=
    if flat_for ff c then raw_group c dfl ms
    else lift_content (cdes_deser any_attrs false no_attrs (content_member 1 (Bounded 1) c dfl ms)).
  Definition group_new (c : compositor) (ms : list mem) : dst :=
    if flat_for ff c then raw_new c ms else DContent (CDes no_attrs [] KInit).
  Definition group_default (c : compositor) (dfl : bool) (ms : list mem)
    : option (dhelper -> outcome kind (val * dhelper)) :=
    if dfl then Some (de_finish (group_deser c dfl ms) (group_new c ms)) else None.

  (** generator/data/complex.rs 556-693 [ComplexDataElement::new]; [gen] are the
      deserializers of the types of elements. *)
  Fixpoint member_of (gen : nat -> deser val dst) (p : particle) : mem :=
    match p with
    | PElement min max ns name ty => Member name ns KindElement min max false false None (gen ty)
    | PGroup min max c ps =>
        let ms := map (member_of gen) ps in
        let dfl := defaultable_group c ps in
        Member "" None KindGroup min max (lowered p) false (group_default c dfl ms) (group_deser c dfl ms)
    end.

  (** ** Types *)

  (** generator/data/complex.rs 254-258, 376-378: the content becomes part of the type. *)
  Definition flattened (attributed : bool) (min : nat) (max : max_occurs) (c : compositor) : bool :=
    match from_occurs min max with
    | OSingle => flat_for ff c && negb (is_choice c && attributed)
    | _ => false
    end.
  Definition has_content (min : nat) (max : max_occurs) (ps : list particle) : bool :=
    match from_occurs min max, ps with
    | ONone, _ | _, [] => false
    | _, _ => true
    end.

  (** The deserializer of a complex type: deserialize.rs 908-939, generator/data/complex.rs
      209-505.  The enum of a flattened choice is rendered while [content] is not set
      (4411-4424), so it is never defaultable. *)
  Definition complex_deser (gen : nat -> deser val dst) (ty : nat)
      (attributed : bool) (min : nat) (max : max_occurs) (c : compositor) (ps : list particle)
    : deser val dst :=
    let ms := map (member_of gen) ps in
    if flattened attributed min max c then
      match c with
      | CChoice => lift_choice (enum_deser (attrs_of ty) true false false false ms)
      | _ =>
          match ms with
          | [] => lift_empty (empty_deser (attrs_of ty) false false)
          | _ =>
              match c with
              | CAll => lift_all (all_deser (attrs_of ty) true no_attrs false ms)
              | _ => lift_sequence (seq_deser (attrs_of ty) true no_attrs false false ms)
              end
          end
      end
    else if has_content min max ps then
      lift_content (cdes_deser (attrs_of ty) true no_attrs
        (content_member min max c (defaultable_group c ps) ms))
    else lift_empty (empty_deser (attrs_of ty) false false).

  Variable env : nat -> tdef.

  (** The deserializers of all types, for documents that nest at most [n] elements deep. *)
  Fixpoint type_deser (n : nat) (ty : nat) : deser val dst :=
    match n with
    | 0 => Deser (fun _ _ => Panic) (fun _ _ _ => Panic) (fun _ _ => Panic)
    | S n' =>
        match env ty with
        | TSimple => lift_text (content_deser charref utf8_ok (parse ty))
        | TSimpleContent => lift_simple (simple_deser (attrs_of ty) charref utf8_ok (parse ty))
        | TComplex attributed min max c ps => complex_deser (type_deser n') ty attributed min max c ps
        end
    end.
End Types.
Arguments val : clear implicits.
Arguments dst : clear implicits.
