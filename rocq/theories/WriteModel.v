(** The serializers generated for all types of a schema, connected with each other:
    xsd-parser/src/pipeline/renderer/steps/quick_xml/serialize.rs 567-1515 and
    [TagName] (xsd-parser/src/models/data/tag_name.rs).

    Schemas and values are those of DocModel, with its simplifications: no [xs:any], no
    dynamic types, [xsi:type], nillable elements or mixed content.  What is known of
    attributes is the function that writes them, and of simple types their
    [serialize_bytes]. *)
From Verif Require Export TextModel DocModel.
Local Open Scope string_scope.
Local Open Scope list_scope.

(** ** Namespaces of tags *)

(** serialize.rs 45-69 [NamespaceSerialization]. *)
Inductive ns_mode : Type := NsNone | NsLocal | NsGlobal | NsDynamic.

(** What the renderer knows: the mode and the default namespace (serialize.rs 35-43
    [QuickXmlSerializeRenderStep]), the prefixes of the modules (models/meta/module.rs
    [ModuleMeta::prefix]), the form of the elements, and for every type the namespace of
    its module, its form, the namespaces of its qualified attributes, and the namespaces
    the [NamespaceCollector] found for it.  Modules are identified with their namespaces. *)
Record wconfig : Type := WConfig {
  wc_mode : ns_mode;
  wc_default : option bytes;
  wc_prefix : bytes -> option bytes;
  wc_element_qualified : option bytes -> bytes -> bool;
  wc_type_ns : nat -> option bytes;
  wc_type_qualified : nat -> bool;
  wc_attr_ns : nat -> list bytes;
  wc_global : nat -> list (option bytes * bytes)
}.

(** tag_name.rs 64-68 and serialize.rs 763-771: the namespace is the default one. *)
Definition is_default (cfg : wconfig) (ns : option bytes) : bool :=
  match ns, wc_default cfg with Some a, Some b => String.eqb a b | _, _ => false end.

(** tag_name.rs 44-72 [get], [get_for_default_namespace]: the name written for an element. *)
Definition field_tag (cfg : wconfig) (ns : option bytes) (name : bytes) : bytes :=
  match (if wc_element_qualified cfg ns name && negb (is_default cfg ns)
         then match ns with Some n => wc_prefix cfg n | None => None end else None) with
  | Some p => (p ++ ":" ++ name)%string
  | None => name
  end.

(** The calls of the helper in the constructor of a start tag: [write_xmlns_for_tag] with
    the name of the element, or [write_xmlns] with a fixed prefix. *)
Inductive xmlns_op : Type :=
| XTag (ns : bytes)
| XFixed (prefix : option bytes) (ns : bytes).

Fixpoint write_ops (name : bytes) (ops : list xmlns_op) (h : helper) : helper * list attr :=
  match ops with
  | [] => (h, [])
  | op :: ops' =>
      let (h1, a1) := match op with
                      | XTag ns => write_xmlns_for_tag h name ns
                      | XFixed p ns => write_xmlns h p ns
                      end in
      let (h2, a2) := write_ops name ops' h1 in
      (h2, (a1 ++ a2)%list)
  end.

(** serialize.rs 780-803: the namespaces of the attributes, each once. *)
Fixpoint attr_ops (cfg : wconfig) (seen : list bytes) (l : list bytes) : list xmlns_op :=
  match l with
  | [] => []
  | ns :: l' =>
      if existsb (String.eqb ns) seen then attr_ops cfg seen l'
      else XFixed (wc_prefix cfg ns) ns :: attr_ops cfg (ns :: seen) l'
  end.

(** serialize.rs 753-811 (mode [Local]). *)
Definition local_ops (cfg : wconfig) (ty : nat) : list xmlns_op :=
  match wc_type_ns cfg ty with
  | Some ns =>
      if negb (is_default cfg (Some ns)) || wc_type_qualified cfg ty
      then XTag ns :: attr_ops cfg [ns] (wc_attr_ns cfg ty)
      else attr_ops cfg [] (wc_attr_ns cfg ty)
  | None => attr_ops cfg [] (wc_attr_ns cfg ty)
  end.

(** serialize.rs 1517-1527 [render_xmlns]. *)
Definition own_ops (cfg : wconfig) (ty : nat) : list xmlns_op :=
  match wc_type_ns cfg ty with
  | Some ns => if wc_type_qualified cfg ty && negb (is_some (wc_prefix cfg ns)) then [XTag ns] else []
  | None => []
  end.
(** serialize.rs 1529-1546 [render_root_xmlns]. *)
Definition root_ops (cfg : wconfig) (ty : nat) : list xmlns_op :=
  match wc_type_ns cfg ty with
  | Some ns => if wc_type_qualified cfg ty then [] else [XTag ns]
  | None => []
  end.
Definition fixed_ops (l : list (option bytes * bytes)) : list xmlns_op :=
  map (fun x => XFixed (fst x) (snd x)) l.

(** serialize.rs 748-884: the calls for a start tag; [None]: no scope is opened.
    [collected] are the namespaces written by [CollectNamespaces::collect_namespaces]. *)
Definition tag_ops (cfg : wconfig) (ty : nat) (root : bool) (collected : list (option bytes * bytes))
  : option (list xmlns_op) :=
  match wc_mode cfg with
  | NsNone => None
  | NsLocal => match local_ops cfg ty with [] => None | ops => Some ops end
  | NsGlobal =>
      let global := root_ops cfg ty ++ fixed_ops (wc_global cfg ty) in
      match own_ops cfg ty, global with
      | [], [] => None
      | own, _ => Some (own ++ if root then global else [])
      end
  | NsDynamic =>
      Some (own_ops cfg ty ++ if root then root_ops cfg ty ++ fixed_ops collected else [])
  end.

Section Start.
  Context {T A : Type}.
  Notation val := (val T A).
  Variable cfg : wconfig.
  (** [CollectNamespaces::collect_namespaces] of the types. *)
  Variable collect : nat -> val -> list (option bytes * bytes).
  (** serialize.rs 729-747: the attributes of a value. *)
  Variable write_attrs : nat -> A -> helper -> outcome kind (list attr) * helper.

  Definition val_attrs (v : val) : option A :=
    match v with VSimple a _ | VStruct a _ => Some a | _ => None end.

  Definition has_scope (ty : nat) : bool := is_some (tag_ops cfg ty false []).

  (** serialize.rs 886-901: the attributes of the start tag, namespaces first.  An error
      in an attribute leaves the scope open. *)
  Definition open_tag (ty : nat) (root : bool) (name : bytes) (v : val) (h : helper)
    : outcome kind (list attr) * helper :=
    let (h1, a1) := match tag_ops cfg ty root (collect ty v) with
                    | None => (h, [])
                    | Some ops => write_ops name ops (begin_ns_scope h)
                    end in
    match val_attrs v with
    | None => (Ok a1, h1)
    | Some a =>
        match write_attrs ty a h1 with
        | (Ok a2, h2) => (Ok (a1 ++ a2), h2)
        | (Err k, h2) => (Err k, h2)
        | (Panic, h2) => (Panic, h2)
        end
    end.

  (** serialize.rs 696-722, 1226-1247. *)
  Definition close_tag (ty : nat) (h : helper) : helper :=
    if has_scope ty then end_ns_scope h else h.
End Start.

(** ** The state machines *)

Section Machines.
  Context {T A : Type}.
  Notation val := (val T A).
  Variable ff : flat_flags.
  Variable env : nat -> tdef.
  (** The name written for an element, and the start and the end of a tag: [field_tag],
      [open_tag], [close_tag] above. *)
  Variable tag : option bytes -> bytes -> bytes.
  Variable opening : nat -> bool -> bytes -> val -> helper -> outcome kind (list attr) * helper.
  Variable closing : nat -> helper -> helper.
  (** [serialize_bytes] of the simple types. *)
  Variable to_bytes : nat -> T -> helper -> outcome kind (option bytes) * helper.

  (** The generated types: structs with a field for every particle, enums, structs around a
      content type or a simple type, structs without content (models/data/complex.rs). *)
  Inductive node : Type :=
  | NFields (ps : list particle)
  | NEnum (ps : list particle)
  | NContent (min : nat) (max : max_occurs) (c : compositor) (ps : list particle)
  | NText (ty : nat)
  | NEmpty.

  (** The types of fields: an element with its tag, a group, the content of a type, a
      simple type as content. *)
  Inductive target : Type :=
  | ToElement (ty : nat) (name : bytes)
  | ToGroup (c : compositor) (ps : list particle)
  | ToContent (c : compositor) (ps : list particle)
  | ToText (ty : nat).

  (** The tag of a type that is an element: the type, the name and [is_root]. *)
  Definition frame : Type := (nat * bytes * bool)%type.

  (** serialize.rs 662-694, 917-942, 1078-1107: the serializers and their states. *)
  Inductive wst : Type :=
  | WText (c : cser)
  | WNode (fr : option frame) (nd : node) (v : val) (st : wstate)
  with wstate : Type :=
  | WInit
  | WAt (i : nat) (f : wfield)
  | WEnd
  | WDone
  with wfield : Type :=
  | WSingle (s : wst)
  | WIter (t : target) (it : iser val wst).

  Definition raw_node (c : compositor) (ps : list particle) : node :=
    if is_choice c then NEnum ps else NFields ps.
  Definition group_node (c : compositor) (ps : list particle) : node :=
    if flat_for ff c then raw_node c ps else NContent 1 (Bounded 1) c ps.
  (** generator/data/complex.rs 209-505, as for [complex_deser]. *)
  Definition complex_node (attributed : bool) (min : nat) (max : max_occurs) (c : compositor)
      (ps : list particle) : node :=
    if flattened ff attributed min max c then raw_node c ps
    else if has_content min max ps then NContent min max c ps else NEmpty.

  (** serialize.rs 567-661 [WithSerializer::serializer] of the types, [ContentSerializer::new]
      of simple types.  A content type ignores the name and [is_root].  A value of another
      shape does not exist in the code. *)
  Definition serializer (t : target) (root : bool) (v : val) : outcome kind wst :=
    match t with
    | ToElement ty name =>
        match env ty, v with
        | TSimple, VText t => Ok (WText (CBegin (Some name) (to_bytes ty t)))
        | TSimple, _ => Panic
        | TSimpleContent, _ => Ok (WNode (Some (ty, name, root)) (NText ty) v WInit)
        | TComplex attributed min max c ps, _ =>
            Ok (WNode (Some (ty, name, root)) (complex_node attributed min max c ps) v WInit)
        end
    | ToGroup c ps => Ok (WNode None (group_node c ps) v WInit)
    | ToContent c ps => Ok (WNode None (raw_node c ps) v WInit)
    | ToText ty =>
        match v with VText t => Ok (WText (CBegin None (to_bytes ty t))) | _ => Panic end
    end.

  Definition target_of (p : particle) : target :=
    match p with
    | PElement _ _ ns name ty => ToElement ty (tag ns name)
    | PGroup _ _ c ps => ToGroup c ps
    end.
  Definition occ_of (p : particle) : occurs :=
    match from_occurs (p_min p) (p_max p) with
    | OSingle => if lowered p then OOptional else OSingle
    | o => o
    end.

  (** serialize.rs 1263-1312, 1334-1465: the serializer of a field.  [IterSerializer]
      does not pass [is_root] on. *)
  Definition field_start (t : target) (o : occurs) (root : bool) (vals : list val) : outcome kind wfield :=
    match o with
    | OSingle =>
        match vals with
        | [v] => match serializer t root v with Ok s => Ok (WSingle s) | Err k => Err k | Panic => Panic end
        | _ => Panic
        end
    | ONone => Panic
    | _ => Ok (WIter t (IPending vals))
    end.

  (** The state in which field number [i] is written. *)
  Definition at_field (i : nat) (p : particle) (root : bool) (vals : list val) : outcome kind wstate :=
    match field_start (target_of p) (occ_of p) root vals with
    | Ok f => Ok (WAt i f)
    | Err k => Err k
    | Panic => Panic
    end.

  (** serialize.rs 965-969, 1128-1132: the state at the end of the content. *)
  Definition final_state (fr : option frame) (nd : node) : wstate :=
    match fr, nd with
    | None, _ | _, NEmpty | _, NFields [] => WDone
    | Some _, _ => WEnd
    end.
  Definition frame_root (fr : option frame) : bool :=
    match fr with Some (_, _, root) => root | None => false end.

  (** serialize.rs 971-990 (enums), 1134-1145 (structs): the first state after [Init]. *)
  Definition first_state (fr : option frame) (nd : node) (v : val) : outcome kind wstate :=
    match nd, v with
    | NFields ps, VStruct _ fields =>
        match ps, fields with
        | [], _ => Ok (final_state fr nd)
        | p :: _, vals :: _ => at_field 0 p false vals
        | _, _ => Panic
        end
    | NEnum ps, VEnum i vals =>
        match nth_error ps i with
        | Some p => at_field i p (frame_root fr) vals
        | None => Panic
        end
    | NContent min max c ps, VStruct _ [vals] =>
        match field_start (ToContent c ps) (from_occurs min max) false vals with
        | Ok f => Ok (WAt 0 f)
        | Err k => Err k
        | Panic => Panic
        end
    | NText ty, VSimple _ t => Ok (WAt 0 (WSingle (WText (CBegin None (to_bytes ty t)))))
    | NEmpty, _ => Ok (final_state fr nd)
    | _, _ => Panic
    end.

  (** serialize.rs 992-1003 (enums), 1147-1175 (structs): the state after field [i]. *)
  Definition next_state_of (fr : option frame) (nd : node) (v : val) (i : nat) : outcome kind wstate :=
    match nd, v with
    | NFields ps, VStruct _ fields =>
        match nth_error ps (S i) with
        | Some p => match nth_error fields (S i) with
                    | Some vals => at_field (S i) p false vals
                    | None => Panic
                    end
        | None => Ok (final_state fr nd)
        end
    | _, _ => Ok (final_state fr nd)
    end.

  Definition wresult : Type := (option (outcome kind event) * wst * helper)%type.

  (** [next] of the serializer of a field. *)
  Definition field_next (next : wst -> helper -> wresult) (f : wfield) (h : helper)
    : option (outcome kind event) * wfield * helper :=
    match f with
    | WSingle s => let '(r, s', h') := next s h in (r, WSingle s', h')
    | WIter t it =>
        let '(r, it', h') := iser_next (serializer t false) next it h in (r, WIter t it', h')
    end.

  (** serialize.rs 1016-1048, 1189-1222 [next_event], [next]: the loop over the states.  The
      fuel bounds the states passed without an event. *)
  Fixpoint wnext (fuel : nat) (s : wst) (h : helper) : wresult :=
    match fuel with
    | 0 => (Some Panic, s, h)
    | S fuel' =>
        match s with
        | WText c => let '(r, c', h') := cser_next c h in (r, WText c', h')
        | WNode fr nd v st =>
            match st with
            | WInit =>
                match first_state fr nd v with
                | Ok st' =>
                    match fr with
                    | None => wnext fuel' (WNode fr nd v st') h
                    | Some (ty, name, root) =>
                        match opening ty root name v h with
                        | (Ok attrs, h') =>
                            match final_state fr nd with
                            | WEnd => (Some (Ok (EStart name attrs)), WNode fr nd v st', h')
                            | _ => (Some (Ok (EEmpty name attrs)), WNode fr nd v st', closing ty h')
                            end
                        | (Err k, h') => (Some (Err k), WNode fr nd v WDone, h')
                        | (Panic, h') => (Some Panic, WNode fr nd v WDone, h')
                        end
                    end
                | Err k => (Some (Err k), WNode fr nd v WDone, h)
                | Panic => (Some Panic, WNode fr nd v WDone, h)
                end
            | WAt i f =>
                let '(r, f', h') := field_next (wnext fuel') f h in
                match r with
                | Some (Ok e) => (Some (Ok e), WNode fr nd v (WAt i f'), h')
                | Some (Err k) => (Some (Err k), WNode fr nd v WDone, h')
                | Some Panic => (Some Panic, WNode fr nd v WDone, h')
                | None =>
                    match next_state_of fr nd v i with
                    | Ok st' => wnext fuel' (WNode fr nd v st') h'
                    | Err k => (Some (Err k), WNode fr nd v WDone, h')
                    | Panic => (Some Panic, WNode fr nd v WDone, h')
                    end
                end
            | WEnd =>
                match fr with
                | Some (ty, name, _) => (Some (Ok (EEnd name)), WNode fr nd v WDone, closing ty h)
                | None => (Some Panic, WNode fr nd v WDone, h)
                end
            | WDone => (None, s, h)
            end
        end
    end.

  (** lib serialize.rs 961-992: [serialize(root, writer)]: all events of a value
      as the root element. *)
  Definition serialize (fuel calls : nat) (ty : nat) (name : bytes) (v : val) (h : helper) : ser_result :=
    match serializer (ToElement ty name) true v with
    | Ok s => ser_run (wnext fuel) calls s h
    | Err k => SRErr [] k
    | Panic => SRPanic
    end.
End Machines.
Arguments wst : clear implicits.
