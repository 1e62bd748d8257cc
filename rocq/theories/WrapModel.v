(** Serializers and deserializers that wrap other ones: [IterSerializer] and
    [XsiTypeSerializer] (xsd-parser-types/src/quick_xml/serialize.rs) and
    [Nillable] (xsd-parser-types/src/xml/nillable.rs). *)
From Verif Require Export ElementModel.
Local Open Scope string_scope.

(** The trait method [Serializer::next]. *)
Definition ser_next (S : Type) : Type := S -> helper -> option (outcome kind event) * S * helper.

(** ** IterSerializer *)
Section Iter.
  Context {I S : Type}.
  (** [item.serializer(name, false)]; [name] is fixed for the whole list. *)
  Variable mk : I -> outcome kind S.
  Variable next : ser_next S.

  (** serialize.rs 363-381 [enum IterSerializer]; the iterator is the list of the
      items left. *)
  Inductive iser : Type :=
  | IPending (items : list I)
  | IEmitting (items : list I) (s : S)
  | IDone.

  (** serialize.rs 390-409: the loop entered with [Pending]. *)
  Fixpoint ipending (items : list I) (h : helper) : option (outcome kind event) * iser * helper :=
    match items with
    | [] => (None, IDone, h)
    | x :: items' =>
        match mk x with
        | Err k => (Some (Err k), IDone, h)
        | Panic => (Some Panic, IDone, h)
        | Ok s =>
            match next s h with
            | (Some ret, s', h') => (Some ret, IEmitting items' s', h')
            | (None, _, h') => ipending items' h'
            end
        end
    end.

  (** serialize.rs 388-427 [next]. *)
  Definition iser_next (st : iser) (h : helper) : option (outcome kind event) * iser * helper :=
    match st with
    | IPending items => ipending items h
    | IEmitting items s =>
        match next s h with
        | (Some ret, s', h') => (Some ret, IEmitting items s', h')
        | (None, _, h') => ipending items h'
        end
    | IDone => (None, IDone, h)
    end.
End Iter.
Arguments iser : clear implicits.

(** ** NillableSerializer *)

(** nillable.rs 157-174 [enum NillableSerializer]. *)
Inductive nser (S : Type) : Type := NSome (inner : S) | NNil (name : bytes) | NDone.
Arguments NSome {S} _.
Arguments NNil {S} _.
Arguments NDone {S}.

Section NillableSer.
  Context {V S : Type}.
  (** [T::serializer(name, is_root)] and its [next]. *)
  Variable mk : V -> outcome kind S.
  Variable next : ser_next S.

  (** nillable.rs 135-149 [serializer]. *)
  Definition nillable_serializer (name : option bytes) (v : option V) : outcome kind (nser S) :=
    match v with
    | Some x => match mk x with Ok s => Ok (NSome s) | Err k => Err k | Panic => Panic end
    | None => Ok (NNil (match name with Some n => n | None => "Nillable" end))
    end.

  (** nillable.rs 192-229 [next]. *)
  Definition nser_next (st : nser S) (h : helper) : option (outcome kind event) * nser S * helper :=
    match st with
    | NSome inner =>
        match next inner h with
        | (None, _, h') => (None, NDone, h')
        | (Some r, s', h') => (Some r, NSome s', h')
        end
    | NNil name =>
        let (h', a) := write_xmlns h (Some "xsi") XSI_NS in
        (Some (Ok (EEmpty name (a ++ [("xsi:nil", "true")])%list)), NDone, h')
    | NDone => (None, NDone, h)
    end.
End NillableSer.

(** ** NillableDeserializer *)

(** deserialize.rs 886-892 [resolve_local_name]. *)
Definition resolve_local_name (r : resolver) (name ns : bytes) : option bytes :=
  match dh_resolve r name true with
  | (RUnbound, local) => Some local
  | (RBound x, local) => if String.eqb x ns then Some local else None
  | (RUnknown _, _) => None
  end.

(** nillable.rs 282-285: the spellings of true. *)
Definition nil_true (v : bytes) : bool :=
  existsb (String.eqb v) ["TRUE"; "True"; "true"; "YES"; "Yes"; "yes"; "1"].

(** nillable.rs 277-285: does the attribute say nil? *)
Definition nil_attr (r : resolver) (a : attr) : bool :=
  match resolve_local_name r (fst a) XSI_NS with
  | Some l => String.eqb l "nil" && nil_true (snd a)
  | None => false
  end.

(** nillable.rs 275-300: the loop over the attributes.  A duplicate attribute is
    reported by quick-xml when the loop reaches it. *)
Fixpoint nil_scan (r : resolver) (seen : list bytes) (attrs : list attr) : outcome kind bool :=
  match attrs with
  | [] => Ok false
  | a :: attrs' =>
      if existsb (String.eqb (fst a)) seen then Err (KAttr "duplicate")
      else if nil_attr r a then Ok true
      else nil_scan r (fst a :: seen) attrs'
  end.

(** nillable.rs 233-245 [enum NillableDeserializer]. *)
Inductive ndes (D : Type) : Type := NInner (d : D) | NEndTag.
Arguments NInner {D} _.
Arguments NEndTag {D}.

Section NillableDes.
  Context {T D : Type} (des : deser T D).

  (** nillable.rs 309-325, 342-354: wrapping of the inner output. *)
  Definition nwrap (o : dout T D) : dout (option T) (ndes D) :=
    DOut (match o_art o with
          | ADes d => ADes (NInner d)
          | AData t => AData (Some t)
          | ANone => ANone
          end) (o_ev o) (o_any o).
  Definition nwrap_result (r : dresult T D) : dresult (option T) (ndes D) :=
    match r with
    | Ok (o, h) => Ok (nwrap o, h)
    | Err k => Err k
    | Panic => Panic
    end.

  (** nillable.rs 265-326 [init]. *)
  Definition nillable_init (h : dhelper) (e : event) : dresult (option T) (ndes D) :=
    match e with
    | EStart _ attrs | EEmpty _ attrs =>
        match nil_scan (d_res h) [] attrs with
        | Ok true =>
            Ok (DOut (match e with EEmpty _ _ => AData None | _ => ADes NEndTag end) DNone false, h)
        | Ok false => nwrap_result (de_init des h e)
        | Err k => Err k
        | Panic => Panic
        end
    | e => Ok (DOut ANone (DContinue e) false, h)
    end.

  (** nillable.rs 328-375 [next]. *)
  Definition nillable_next (s : ndes D) (h : dhelper) (e : event) : dresult (option T) (ndes D) :=
    match s with
    | NInner d => nwrap_result (de_next des d h e)
    | NEndTag =>
        match e with
        | EEnd _ => Ok (DOut (AData None) DNone false, h)
        | e => Ok (DOut (ADes NEndTag) (DBreak e) false, h)
        end
    end.

  (** nillable.rs 377-386 [finish]. *)
  Definition nillable_finish (s : ndes D) (h : dhelper) : outcome kind (option T * dhelper) :=
    match s with
    | NInner d => match de_finish des d h with
                  | Ok (t, h') => Ok (Some t, h')
                  | Err k => Err k
                  | Panic => Panic
                  end
    | NEndTag => Err KUnexpectedEoL
    end.

  Definition nillable_deser : deser (option T) (ndes D) := Deser nillable_init nillable_next nillable_finish.
End NillableDes.

(** ** XsiTypeSerializer *)

(** serialize.rs 534-548 [enum XsiTypeState]. *)
Inductive xstate := XInit | XPending | XOpen (depth : nat) | XDone.

(** serialize.rs 527-532 [struct XsiTypeSerializer]. *)
Record xser (S : Type) := XSer { x_inner : S; x_name : bytes; x_root : bool; x_state : xstate }.
Arguments XSer {S} _ _ _ _.
Arguments x_inner {S} _.
Arguments x_name {S} _.
Arguments x_root {S} _.
Arguments x_state {S} _.

(** quick-xml's attribute iterator reports every repeated name as an error, and
    [attr.ok()?] drops it: the first occurrence of each name is left. *)
Fixpoint first_attrs (seen : list bytes) (attrs : list attr) : list attr :=
  match attrs with
  | [] => []
  | a :: attrs' =>
      if existsb (String.eqb (fst a)) seen then first_attrs seen attrs'
      else a :: first_attrs (fst a :: seen) attrs'
  end.

(** serialize.rs 566-596 [rewrite]; returns the name and attributes of the new
    tag. *)
Definition xsi_rewrite (name : bytes) (root : bool) (n : bytes) (attrs : list attr) (h : helper)
  : bytes * list attr * helper :=
  if String.eqb n name then (n, attrs, h)
  else
    let (h', d) := if root then write_xmlns h (Some "xsi") XSI_NS else (h, []) in
    (name,
     (d ++ ("xsi:type", n) ::
      filter (fun a => negb (String.eqb (fst a) "xsi:type" || String.eqb (fst a) "xmlns:xsi"))
             (first_attrs [] attrs))%list, h').

Section XsiType.
  Context {S : Type} (next : ser_next S).

  (** serialize.rs 603-652 [next]. *)
  Definition xser_next (x : xser S) (h : helper) : option (outcome kind event) * xser S * helper :=
    let 'XSer inner name root st := x in
    match next inner h with
    | (None, inner', h') => (None, XSer inner' name root st, h')
    | (Some (Err k), inner', h') => (Some (Err k), XSer inner' name root st, h')
    | (Some Panic, inner', h') => (Some Panic, XSer inner' name root st, h')
    | (Some (Ok e), inner', h') =>
        let '(st, h') := match st with XInit => (XPending, begin_ns_scope h') | _ => (st, h') end in
        match st with
        | XPending =>
            match e with
            | EEmpty n a =>
                let '(n', a', h'') := xsi_rewrite name root n a h' in
                (Some (Ok (EEmpty n' a')), XSer inner' name root XDone, h'')
            | EStart n a =>
                let '(n', a', h'') := xsi_rewrite name root n a h' in
                (Some (Ok (EStart n' a')), XSer inner' name root (XOpen 1), h'')
            | other => (Some (Ok other), XSer inner' name root XDone, h')
            end
        | XOpen depth =>
            match e with
            | EStart _ _ => (Some (Ok e), XSer inner' name root (XOpen (Datatypes.S depth)), h')
            | EEnd _ =>
                if Nat.eqb (pred depth) 0
                then (Some (Ok (EEnd name)), XSer inner' name root XDone, end_ns_scope h')
                else (Some (Ok e), XSer inner' name root (XOpen (pred depth)), h')
            | _ => (Some (Ok e), XSer inner' name root st, h')
            end
        | _ => (Some (Ok e), XSer inner' name root st, h')
        end
    end.
End XsiType.
