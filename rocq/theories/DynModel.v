(** Model of dynamic types: how the generated code chooses the type of an element by its name
    or by its [xsi:type] attribute (xsd-parser/src/pipeline/renderer/steps/quick_xml/
    deserialize.rs 170-557, 4589-4616), and how it writes such values (serialize.rs 215-310,
    1823-1856 in the same directory). *)
From Verif Require Export WrapModel.
Local Open Scope string_scope.

(** models/data/dynamic.rs [DerivedType]: the kind of the identifier, the namespace constant of
    its module (if any) and its name; the identifier of its type and the Rust type it stands
    for, which is the type of the boxed value; whether the relationship is [ConcreteType]; the name of the tag. *)
Inductive dyn_kind := DynType | DynElement | DynOther.
Record dentry := DEntry {
  y_kind : dyn_kind; y_ns : option bytes; y_name : bytes; y_meta : nat; y_target : nat; y_concrete : bool; y_tag : bytes }.

(** models/data/dynamic.rs [DynamicData] and the identifier of the type. *)
Record dtype := DType { t_ns : option bytes; t_name : bytes; t_tag : bytes; t_entries : list dentry }.

Definition is_type (y : dentry) : bool := match y_kind y with DynType => true | _ => false end.
Definition is_element (y : dentry) : bool := match y_kind y with DynElement => true | _ => false end.

(** deserialize.rs 489-511 and 4589-4616: the generated comparison of a name. *)
Definition name_is (r : resolver) (n : bytes) (ns : option bytes) (name : bytes) : bool :=
  match ns with
  | Some ns => match resolve_local_name r n ns with Some l => String.eqb l name | None => false end
  | None => String.eqb n name
  end.

(** lib deserialize.rs 1006-1027 [get_dynamic_type_from_attrib_bytes].  Errors of the iterator
    (repeated names) are skipped. *)
Definition type_attr (r : resolver) (a : attr) : bool :=
  match dh_resolve r (fst a) true with
  | (RUnbound, l) => String.eqb l "type"
  | (RBound ns, l) => String.eqb ns XSI_NS && String.eqb l "type"
  | (RUnknown _, _) => false
  end.
Definition xsi_type (r : resolver) (attrs : list attr) : option bytes :=
  option_map snd (find (type_attr r) (first_attrs [] attrs)).

(** deserialize.rs 395-411 [get_default_type_name]. *)
Definition default_name (d : dtype) : option bytes :=
  option_map y_name (find (fun y => is_type y && y_concrete y) (t_entries d)).

(** deserialize.rs 414-512: the generated comparisons, one after the other. *)
Definition first_match (r : resolver) (n : bytes) (sel : dentry -> bool) (l : list dentry) : option dentry :=
  find (fun y => sel y && name_is r n (y_ns y) (y_name y)) l.

(** deserialize.rs 279-313: the part of [init] that looks at types. *)
Definition choose_type (d : dtype) (r : resolver) (n : bytes) (attrs : list attr) : option dentry :=
  if existsb is_type (t_entries d) && name_is r n (t_ns d) (t_name d) then
    match (match xsi_type r attrs with Some v => Some v | None => default_name d end) with
    | Some v => first_match r v is_type (t_entries d)
    | None => None
    end
  else None.
(** deserialize.rs 352-368: types first, then elements. *)
Definition choose (d : dtype) (r : resolver) (n : bytes) (attrs : list attr) : option dentry :=
  match choose_type d r n attrs with
  | Some y => Some y
  | None => first_match r n is_element (t_entries d)
  end.

(** [Box<dyn Trait>]: the type and the value. *)
Record boxed (A : Type) := Boxed { bx_type : nat; bx_value : A }.
Arguments Boxed {A} _ _.
Arguments bx_type {A} _.
Arguments bx_value {A} _.

Section Read.
  (** The deserializers of the target types. *)
  Context {V D : Type} (types : nat -> deser V D).
  Variable d : dtype.

  (** deserialize.rs 470-487, 533-553: mapping the artifact.  Simplification: the variants of
      the deserializer are named after the target type. *)
  Definition box_out (ty : nat) (x : dresult V D) : dresult (boxed V) (boxed D) :=
    match x with
    | Ok (o, h) =>
        Ok (DOut (match o_art o with
                  | ANone => ANone
                  | AData v => AData (Boxed ty v)
                  | ADes s => ADes (Boxed ty s)
                  end) (o_ev o) (o_any o), h)
    | Err k => Err k
    | Panic => Panic
    end.

  (** deserialize.rs 348-369 [init]. *)
  Definition dyn_init (h : dhelper) (e : event) : dresult (boxed V) (boxed D) :=
    match e with
    | EStart n attrs | EEmpty n attrs =>
        match choose d (d_res h) n attrs with
        | Some y => box_out (y_target y) (de_init (types (y_target y)) h e)
        | None => Ok (DOut ANone (DBreak e) false, h)
        end
    | _ => Ok (DOut ANone DNone false, h)
    end.
  (** deserialize.rs 371-379 [next]. *)
  Definition dyn_next (s : boxed D) (h : dhelper) (e : event) : dresult (boxed V) (boxed D) :=
    box_out (bx_type s) (de_next (types (bx_type s)) (bx_value s) h e).
  (** deserialize.rs 381-388 [finish]. *)
  Definition dyn_finish (s : boxed D) (h : dhelper) : outcome kind (boxed V * dhelper) :=
    match de_finish (types (bx_type s)) (bx_value s) h with
    | Ok (v, h') => Ok (Boxed (bx_type s) v, h')
    | Err k => Err k
    | Panic => Panic
    end.
  Definition dyn_deser : deser (boxed V) (boxed D) := Deser dyn_init dyn_next dyn_finish.
End Read.

(** serialize.rs 1823-1856 [filter_dynamic_types]. *)
Definition by_xsi_type (d : dtype) (y : dentry) : bool :=
  is_type y && negb (y_concrete y) &&
  negb (existsb (fun z => is_element z && Nat.eqb (y_meta z) (y_meta y)) (t_entries d)).

Section Write.
  Context {V S : Type}.
  (** [self.0.serializer(name, is_root)] and its [next]. *)
  Variable mk : nat -> V -> option bytes -> bool -> outcome kind S.
  Variable next : ser_next S.
  Variable d : dtype.

  (** serialize.rs 225: a boxed serializer, which is one of two. *)
  Inductive dser := DXsi (x : xser S) | DPlain (s : S).
  Definition plain_ser (x : outcome kind S) : outcome kind dser :=
    match x with Ok s => Ok (DPlain s) | Err k => Err k | Panic => Panic end.

  (** serialize.rs 231-242 [serializer], 248-283 the types, 285-309 the elements. *)
  Definition dyn_serializer (v : boxed V) (name : option bytes) (root : bool) : outcome kind dser :=
    let ty := bx_type v in
    if existsb (fun y => by_xsi_type d y && Nat.eqb (y_target y) ty) (t_entries d) then
      match mk ty (bx_value v) None root with
      | Ok s => Ok (DXsi (XSer s (match name with Some n => n | None => t_tag d end) root XInit))
      | Err k => Err k
      | Panic => Panic
      end
    else
      match find (fun y => is_element y && Nat.eqb (y_target y) ty) (t_entries d) with
      | Some y => plain_ser (mk ty (bx_value v) (Some (y_tag y)) root)
      | None => plain_ser (mk ty (bx_value v) None root)
      end.

  Definition dser_next (s : dser) (h : helper) : option (outcome kind event) * dser * helper :=
    match s with
    | DXsi x => let '(o, x', h') := xser_next next x h in (o, DXsi x', h')
    | DPlain s => let '(o, s', h') := next s h in (o, DPlain s', h')
    end.
End Write.
Arguments dser : clear implicits.
