(** Model of the unstructured element type [AnyElement]
    (xsd-parser-types/src/xml/element.rs, xml/value.rs) with its serializer and
    deserializer, and of the serialization driver. *)
From Verif Require Export DeModel.
Local Open Scope string_scope.

(** element.rs 27-40 [struct Element] and xml/value.rs [enum Value].  The maps
    are association lists: [attrs] in the order of the [IndexMap], [ns] in the
    (arbitrary) iteration order of the [HashMap].  All payloads are raw bytes. *)
Inductive element : Type :=
| Element (name : bytes) (attrs : list attr) (ns : nsmap) (values : list value)
with value : Type :=
| VElem (e : element)
| VComment (raw : bytes)
| VCData (raw : bytes)
| VText (raw : bytes).

Definition el_name (e : element) := let 'Element n _ _ _ := e in n.
Definition el_attrs (e : element) := let 'Element _ a _ _ := e in a.
Definition el_ns (e : element) := let 'Element _ _ m _ := e in m.
Definition el_values (e : element) := let 'Element _ _ _ v := e in v.

(** ** Serialization driver *)

(** Result of driving a serializer: events written so far and how it ended. *)
Inductive ser_result :=
| SRDone (evs : list event) (h : helper)
| SRErr (evs : list event) (k : kind)
| SRPanic
| SRFuel.

Definition ser_cons (e : event) (r : ser_result) : ser_result :=
  match r with
  | SRDone evs h => SRDone (e :: evs) h
  | SRErr evs k => SRErr (e :: evs) k
  | SRPanic => SRPanic
  | SRFuel => SRFuel
  end.

(** serialize.rs 984-992 [serialize_sync], 1000-1009 [serialize_async]: call
    [next] until it returns [None] or an error.  [next] is the trait method
    [Serializer::next]; the fuel bounds the number of calls.  Simplification:
    writing an event to the output is assumed to succeed. *)
Section SerDriver.
  Context {S : Type} (next : S -> helper -> option (outcome kind event) * S * helper).
  Fixpoint ser_run (fuel : nat) (s : S) (h : helper) : ser_result :=
    match fuel with
    | 0 => SRFuel
    | Datatypes.S fuel' =>
        match next s h with
        | (None, _, h') => SRDone [] h'
        | (Some (Ok e), s', h') => ser_cons e (ser_run fuel' s' h')
        | (Some (Err k), _, _) => SRErr [] k
        | (Some Panic, _, _) => SRPanic
        end
    end.
End SerDriver.

(** ** ElementSerializer *)

(** element.rs 169-190 [enum ElementSerializer]. *)
Inductive eser : Type :=
| SStart (name : option bytes) (e : element)
| SEnd (name : option bytes) (e : element)
| SNext (name : option bytes) (e : element) (values : list value)
| SSub (name : option bytes) (e : element) (values : list value) (inner : eser)
| SDone.

(** element.rs 207-215: writing the namespaces of the element. *)
Fixpoint write_namespaces (h : helper) (m : nsmap) : helper * list attr :=
  match m with
  | [] => (h, [])
  | (p, ns) :: m' =>
      let (h1, a1) := write_xmlns h (if String.eqb p "" then None else Some p) ns in
      let (h2, a2) := write_namespaces h1 m' in
      (h2, (a1 ++ a2)%list)
  end.

(** element.rs 224-232: the filter predicate on attributes. *)
Definition keep_attr (m : nsmap) (a : attr) : bool :=
  if String.eqb (fst a) "xmlns" then negb (is_some (assoc "" m))
  else if starts_with "xmlns:" (fst a) then negb (is_some (assoc (str_drop 6 (fst a)) m))
  else true.

Section ElementSerializer.
  (** [str::from_utf8(b).is_ok()]. *)
  Variable utf8_ok : bytes -> bool.

  (** element.rs 203 and 258: the tag name. *)
  Definition tag_name (name : option bytes) (e : element) : outcome kind bytes :=
    match name with
    | Some n => Ok n
    | None => if utf8_ok (el_name e) then Ok (el_name e) else Err KUtf8
    end.

  (** element.rs 202-256 (state [Start]). *)
  Definition do_start (name : option bytes) (e : element) (h : helper)
    : option (outcome kind event) * eser * helper :=
    match tag_name name e with
    | Err k => (Some (Err k), SDone, h)
    | Panic => (Some Panic, SDone, h)
    | Ok n =>
        let (h1, a1) := write_namespaces (begin_ns_scope h) (el_ns e) in
        let attrs := (a1 ++ filter (keep_attr (el_ns e)) (el_attrs e))%list in
        match el_values e with
        | [] => (Some (Ok (EEmpty n attrs)), SDone, end_ns_scope h1)
        | vs => (Some (Ok (EStart n attrs)), SNext name e vs, h1)
        end
    end.

  (** element.rs 257-265 (state [End]). *)
  Definition do_end (name : option bytes) (e : element) (h : helper)
    : option (outcome kind event) * eser * helper :=
    match tag_name name e with
    | Err k => (Some (Err k), SDone, h)
    | Panic => (Some Panic, SDone, h)
    | Ok n => (Some (Ok (EEnd n)), SDone, end_ns_scope h)
    end.

  (** element.rs 266-309 (state [NextValue]) including the loop iteration that
      follows when the state becomes [End] or [SubElement]. *)
  Definition do_next (name : option bytes) (e : element) (vs : list value) (h : helper)
    : option (outcome kind event) * eser * helper :=
    match vs with
    | [] => do_end name e h
    | VElem sub :: vs' =>
        let '(item, inner, h') := do_start None sub h in
        (item, SSub name e vs' inner, h')
    | VComment c :: vs' => (Some (Ok (EComment c)), SNext name e vs', h)
    | VCData c :: vs' => (Some (Ok (ECData c)), SNext name e vs', h)
    | VText t :: vs' => (Some (Ok (EText t)), SNext name e vs', h)
    end.

  (** element.rs 199-337 [next_item]. *)
  Fixpoint eser_next (s : eser) (h : helper) : option (outcome kind event) * eser * helper :=
    match s with
    | SStart name e => do_start name e h
    | SEnd name e => do_end name e h
    | SNext name e vs => do_next name e vs h
    | SSub name e vs inner =>
        match eser_next inner h with
        | (None, _, h') => do_next name e vs h'
        | (Some item, inner', h') => (Some item, SSub name e vs inner', h')
        end
    | SDone => (None, SDone, h)
    end.

  Definition element_ser_run (fuel : nat) (name : option bytes) (e : element) (h : helper) : ser_result :=
    ser_run eser_next fuel (SStart name e) h.
End ElementSerializer.

(** ** ElementDeserializer *)

(** element.rs 349-352 [struct ElementDeserializer]. *)
Inductive edes : Type := EDes (e : element) (sub : option edes).

Fixpoint nodup_keys (a : list attr) : bool :=
  match a with
  | [] => true
  | (k, _) :: a' => negb (existsb (fun x => String.eqb k (fst x)) a') && nodup_keys a'
  end.

(** element.rs 363-387 [create_element].  quick-xml's attribute iterator reports
    a duplicate name as an error; other syntax errors are not modelled. *)
Definition create_element (n : bytes) (attrs : list attr) (m : nsmap) : outcome kind element :=
  if nodup_keys attrs then Ok (Element n attrs m []) else Err (KAttr "duplicate").

(** [self.element.values.push(value)] *)
Definition push_value (e : element) (v : value) : element :=
  let 'Element n a m vs := e in Element n a m (vs ++ [v]).

(** element.rs 392-424 [init]. *)
Definition edes_init (h : dhelper) (e : event) : dresult element edes :=
  match e with
  | EStart n attrs =>
      let (m, h') := namespaces h in
      match create_element n attrs m with
      | Ok el => Ok (DOut (ADes (EDes el None)) DNone true, h')
      | Err k => Err k
      | Panic => Panic
      end
  | EEmpty n attrs =>
      let (m, h') := namespaces h in
      match create_element n attrs m with
      | Ok el => Ok (DOut (AData el) DNone true, h')
      | Err k => Err k
      | Panic => Panic
      end
  | e => Ok (DOut ANone (DContinue e) true, h)
  end.

(** element.rs 433-458: the artifact part of the macro [handle_output]. *)
Definition handle_art (e : element) (a : artifact element edes) : edes :=
  match a with
  | ANone => EDes e None
  | AData x => EDes (push_value e (VElem x)) None
  | ADes s => EDes e (Some s)
  end.

(** element.rs 468-505: the second half of [next], applied to the event left
    over by the sub deserializer ([self] has its final [sub]). *)
Definition edes_own (self : edes) (h : dhelper) (e : event) : dresult element edes :=
  let 'EDes el sub := self in
  match e with
  | EStart _ _ | EEmpty _ _ =>
      match edes_init h e with
      | Ok (out, h') =>
          (* [*self.sub] is only replaced by a [Deserializer] artifact *)
          let self' := match o_art out with
                       | ANone => self
                       | AData x => EDes (push_value el (VElem x)) sub
                       | ADes s => EDes el (Some s)
                       end in
          match o_ev out with
          | DNone => Ok (DOut (ADes self') DNone true, h')
          | DBreak e' | DContinue e' => Ok (DOut (ADes self') (DBreak e') true, h')
          end
      | Err k => Err k
      | Panic => Panic
      end
  | EEnd _ => Ok (DOut (AData el) DNone true, h)
  | EText t => Ok (DOut (ADes (EDes (push_value el (VText t)) sub)) DNone true, h)
  | ECData t => Ok (DOut (ADes (EDes (push_value el (VCData t)) sub)) DNone true, h)
  | EComment t => Ok (DOut (ADes (EDes (push_value el (VComment t)) sub)) DNone true, h)
  | e => Ok (DOut (ADes self) (DBreak e) true, h)
  end.

(** element.rs 426-512 [next]. *)
Fixpoint edes_next (d : edes) (h : dhelper) (e : event) : dresult element edes :=
  let 'EDes el sub := d in
  match sub with
  | None => edes_own (EDes el None) h e
  | Some s =>
      match edes_next s h e with
      | Err k => Err k
      | Panic => Panic
      | Ok (out, h') =>
          let self := handle_art el (o_art out) in
          match o_ev out with
          | DNone => Ok (DOut (ADes self) DNone true, h')
          | DBreak e' => Ok (DOut (ADes self) (DBreak e') true, h')
          | DContinue e' => edes_own self h' e'
          end
      end
  end.

(** element.rs 515-524 [finish]. *)
Fixpoint edes_finish (d : edes) (h : dhelper) : outcome kind (element * dhelper) :=
  let 'EDes el sub := d in
  match sub with
  | None => Ok (el, h)
  | Some s =>
      match edes_finish s h with
      | Ok (x, h') => Ok (push_value el (VElem x), h')
      | Err k => Err k
      | Panic => Panic
      end
  end.

Definition element_deser : deser element edes := Deser edes_init edes_next edes_finish.
