(** Model of the deserialization core: quick-xml's namespace resolver,
    [DeserializeHelper] (namespace part), the [Deserializer] interface and the
    driver [DeserializeImpl]
    (xsd-parser-types/src/quick_xml/deserialize.rs, error.rs). *)
From Verif Require Export SerHelperModel.
Local Open Scope string_scope.

(** ** Errors *)

(** quick_xml/error.rs 32-201 [Kind], restricted to the kinds raised by modelled
    code.  Payloads that only serve the message are dropped where they are not
    needed. *)
Inductive kind : Type :=
| KXml (msg : bytes)
| KAttr (msg : bytes)
| KUtf8
| KEscape
| KEncoding
| KDuplicateAttribute (name : bytes)
| KDuplicateElement (name : bytes)
| KUnexpectedAttribute (name : bytes)
| KMissingAttribute (name : bytes)
| KMissingElement (name : bytes)
| KInvalidData (raw : bytes)
| KInvalidValue (raw : bytes)
| KUnknownOrInvalidValue (raw : bytes)
| KMissingContent
| KDuplicateContent
| KMissingName
| KInsufficientSize (min : nat) (max : option nat) (actual : nat)
| KUnexpectedEvent (e : event)
| KUnexpectedEoL
| KCustom (msg : bytes).

(** ** quick-xml 0.38 [NamespaceResolver] *)

(** A binding: nesting level, prefix ([None] = default) and value. *)
Record binding := Binding { b_level : nat; b_prefix : option bytes; b_value : bytes }.

(** Newest binding first.  Simplification: the two predefined bindings [xml] and
    [xmlns] (level 0, never removed, never listed by [bindings()]) are not
    stored. *)
Record resolver := Resolver { r_level : nat; r_bindings : list binding }.

Definition resolver_default : resolver := Resolver 0 [].

(** quick-xml [QName::as_namespace_binding]: [xmlns] declares the default
    namespace, [xmlns:p] the prefix [p]; a named declaration with empty prefix
    is stored with prefix length 0, i.e. as the default one. *)
Definition xmlns_decl (key : bytes) : option (option bytes) :=
  if starts_with "xmlns" key then
    match str_drop 5 key with
    | EmptyString => Some None
    | String c rest => if Ascii.eqb c ":" then Some (Some rest) else None
    end
  else None.

Definition XML_NS : bytes := "http://www.w3.org/XML/1998/namespace".
Definition XMLNS_NS : bytes := "http://www.w3.org/2000/xmlns/".
Definition XSI_NS : bytes := "http://www.w3.org/2001/XMLSchema-instance".

(** quick-xml [NamespaceResolver::push], loop body.  [None] is an error. *)
Definition push_attr (level : nat) (bs : list binding) (a : attr) : option (list binding) :=
  let (k, v) := a in
  match xmlns_decl k with
  | None => Some bs
  | Some None => Some (Binding level None v :: bs)
  | Some (Some p) =>
      if String.eqb p "xml" then
        if String.eqb v XML_NS then Some bs else None
      else if String.eqb p "xmlns" then None
      else if String.eqb v XML_NS then None
      else if String.eqb v XMLNS_NS then None
      else Some (Binding level (filter_prefix (Some p)) v :: bs)
  end.

Fixpoint push_attrs (level : nat) (bs : list binding) (attrs : list attr) : option (list binding) :=
  match attrs with
  | [] => Some bs
  | a :: attrs' =>
      match push_attr level bs a with
      | Some bs' => push_attrs level bs' attrs'
      | None => None
      end
  end.

(** quick-xml [NamespaceResolver::push].  Simplification: attribute lists that
    are syntactically broken are not modelled (events carry parsed
    attributes). *)
Definition resolver_push (r : resolver) (attrs : list attr) : option resolver :=
  match push_attrs (S (r_level r)) (r_bindings r) attrs with
  | Some bs => Some (Resolver (S (r_level r)) bs)
  | None => None
  end.

Fixpoint drop_bindings (level : nat) (bs : list binding) : list binding :=
  match bs with
  | [] => []
  | b :: bs' => if Nat.ltb level (b_level b) then drop_bindings level bs' else bs
  end.

(** quick-xml [NamespaceResolver::pop]. *)
Definition resolver_pop (r : resolver) : resolver :=
  Resolver (pred (r_level r)) (drop_bindings (pred (r_level r)) (r_bindings r)).

Fixpoint find_prefix (p : option bytes) (bs : list binding) : option bytes :=
  match bs with
  | [] => None
  | b :: bs' => if opt_eqb (b_prefix b) p then Some (b_value b) else find_prefix p bs'
  end.

(** quick-xml [ResolveResult]. *)
Inductive resolve_result := RUnbound | RBound (ns : bytes) | RUnknown (p : bytes).

(** quick-xml [NamespaceResolver::resolve] ([QName::decompose] splits at the
    first colon). *)
Definition resolve (r : resolver) (name : bytes) (use_default : bool) : resolve_result * bytes :=
  match split_colon name with
  | None =>
      (if use_default then
         match find_prefix None (r_bindings r) with
         | Some EmptyString => RUnbound
         | Some ns => RBound ns
         | None => RUnbound
         end
       else RUnbound, name)
  | Some (p, local) =>
      (if String.eqb p "xml" then RBound XML_NS
       else if String.eqb p "xmlns" then RBound XMLNS_NS
       else match find_prefix (Some p) (r_bindings r) with
            | Some EmptyString => RUnknown p
            | Some ns => RBound ns
            | None => RUnknown p
            end, local)
  end.

(** deserialize.rs 681-687 [DeserializeHelper::resolve]: the second argument says
    whether the name is that of an attribute; such names have no default
    namespace. *)
Definition dh_resolve (r : resolver) (name : bytes) (attribute : bool) : resolve_result * bytes :=
  resolve r name (negb attribute).

(** quick-xml [NamespaceResolver::bindings]: oldest first, skipping entries
    overridden by a newer one and entries with empty value. *)
Fixpoint bindings_of (bs : list binding) : list (option bytes * bytes) :=
  match bs with
  | [] => []
  | b :: bs' =>
      (filter (fun x => negb (opt_eqb (fst x) (b_prefix b))) (bindings_of bs') ++
       match b_value b with
       | EmptyString => []
       | v => [(b_prefix b, v)]
       end)%list
  end.

(** ** DeserializeHelper *)

(** Contents of a [Namespaces] map as an association list (prefix, namespace);
    the default namespace has the empty prefix. *)
Definition nsmap := list (bytes * bytes).

(** deserialize.rs 669-674 [struct DeserializeHelper]; cache entries newest
    first. *)
Record dhelper := DHelper {
  d_level : nat;
  d_res : resolver;
  d_cache : list (nat * option nsmap);
  d_pending : bool
}.

(** deserialize.rs 1246-1255. *)
Definition dhelper_default : dhelper := DHelper 0 resolver_default [(0, None)] false.

(** deserialize.rs 700-709: conversion of the resolver's bindings. *)
Definition nsmap_of (r : resolver) : nsmap :=
  map (fun x => (match fst x with Some p => p | None => EmptyString end, snd x))
      (bindings_of (r_bindings r)).

(** deserialize.rs 695-713 [namespaces]. *)
Definition namespaces (h : dhelper) : nsmap * dhelper :=
  match d_cache h with
  | [] => ([], h)
  | (l, Some m) :: _ => (m, h)
  | (l, None) :: c =>
      let m := nsmap_of (d_res h) in
      (m, DHelper (d_level h) (d_res h) ((l, Some m) :: c) (d_pending h))
  end.

Fixpoint drop_cache (level : nat) (c : list (nat * option nsmap)) : list (nat * option nsmap) :=
  match c with
  | [] => []
  | x :: c' => if Nat.ltb level (fst x) then drop_cache level c' else c
  end.

(** deserialize.rs 1206-1219: the delayed pop at the start of [handle_event]. *)
Definition dh_pop (h : dhelper) : dhelper :=
  if d_pending h then
    DHelper (pred (d_level h)) (resolver_pop (d_res h))
            (drop_cache (pred (d_level h)) (d_cache h)) false
  else h.

(** deserialize.rs 1226-1232: is there an attribute whose key starts with
    [xmlns]? *)
Definition has_xmlns (attrs : list attr) : bool :=
  existsb (fun a => starts_with "xmlns" (fst a)) attrs.

(** deserialize.rs 1222-1236: entering a tag. *)
Definition dh_enter (h : dhelper) (attrs : list attr) (empty : bool) : option dhelper :=
  let level := S (d_level h) in
  let cache := if has_xmlns attrs then (level, None) :: d_cache h else d_cache h in
  match resolver_push (d_res h) attrs with
  | Some r => Some (DHelper level r cache empty)
  | None => None
  end.

(** deserialize.rs 1205-1243 [handle_event]; [None] is a [NamespaceError]. *)
Definition dh_event (h : dhelper) (e : event) : option dhelper :=
  let h := dh_pop h in
  match e with
  | EStart _ attrs => dh_enter h attrs false
  | EEmpty _ attrs => dh_enter h attrs true
  | EEnd _ => Some (DHelper (d_level h) (d_res h) (d_cache h) true)
  | _ => Some h
  end.

(** ** The Deserializer interface *)

(** deserialize.rs 218-234 [DeserializerArtifact]. *)
Inductive artifact (T D : Type) : Type := ANone | AData (t : T) | ADes (d : D).
Arguments ANone {T D}.
Arguments AData {T D} t.
Arguments ADes {T D} d.

(** deserialize.rs 298-310 [DeserializerEvent]. *)
Inductive devent : Type := DNone | DBreak (e : event) | DContinue (e : event).

(** deserialize.rs 313-320 [into_event]. *)
Definition into_event (d : devent) : option event :=
  match d with DNone => None | DBreak e | DContinue e => Some e end.

(** deserialize.rs 196-213 [DeserializerOutput]. *)
Record dout (T D : Type) := DOut { o_art : artifact T D; o_ev : devent; o_any : bool }.
Arguments DOut {T D} _ _ _.
Arguments o_art {T D} _.
Arguments o_ev {T D} _.
Arguments o_any {T D} _.

Definition dresult (T D : Type) : Type := outcome kind (dout T D * dhelper).

(** The trait [Deserializer] (deserialize.rs 73-107): [init], [next], [finish].
    The helper is passed by [&mut], so the new helper is returned. *)
Record deser (T D : Type) := Deser {
  de_init : dhelper -> event -> dresult T D;
  de_next : D -> dhelper -> event -> dresult T D;
  de_finish : D -> dhelper -> outcome kind (T * dhelper)
}.
Arguments Deser {T D} _ _ _.
Arguments de_init {T D} _ _ _.
Arguments de_next {T D} _ _ _ _.
Arguments de_finish {T D} _ _ _.

(** ** The driver *)

(** deserialize.rs 1259-1268 [struct DeserializeImpl] without the reader. *)
Record driver (D : Type) := Driver {
  v_helper : dhelper;
  v_des : option D;
  v_skip : option nat
}.
Arguments Driver {D} _ _ _.
Arguments v_helper {D} _.
Arguments v_des {D} _.
Arguments v_skip {D} _.

Definition driver_new {D} : driver D := Driver dhelper_default None None.

(** deserialize.rs 1330-1348 [handle_skip]: new skip depth and the event to
    process, if any. *)
Definition handle_skip (skip : option nat) (e : event) : option nat * option event :=
  match skip with
  | None => (None, Some e)
  | Some d =>
      match e with
      | EStart _ _ => (Some (S d), None)
      | EEnd _ => if Nat.eqb d 1 then (None, None) else (Some (pred d), None)
      | EEof => (Some d, Some EEof)
      | _ => (Some d, None)
      end
  end.

Section Driver.
  Context {T D : Type} (des : deser T D).
  (** [text.decode()] fails ([None]) or says whether the text is only (Unicode)
      white space; deserialize.rs 1321. *)
  Variable text_blank : bytes -> option bool.

  (** deserialize.rs 1307-1325: what happens to an event the deserializer did
      not consume; returns the new skip depth. *)
  Definition unconsumed (skip : option nat) (any : bool) (e : option event) : outcome kind (option nat) :=
    match e with
    | None | Some (EDecl _) | Some (EComment _) | Some (EDocType _)
    | Some (ERef _) | Some (EPI _) => Ok skip
    | Some e =>
        if any then
          match e with EStart _ _ => Ok (Some 1) | _ => Ok skip end
        else
          match e with
          | EText raw =>
              match text_blank raw with
              | None => Err KEncoding
              | Some true => Ok skip
              | Some false => Err (KUnexpectedEvent e)
              end
          | _ => Err (KUnexpectedEvent e)
          end
    end.

  (** deserialize.rs 1285-1328 [handle_event]. *)
  Definition driver_step (v : driver D) (e : event) : outcome kind (option T * driver D) :=
    match dh_event (v_helper v) e with
    | None => Err (KXml "namespace")
    | Some h =>
        match handle_skip (v_skip v) e with
        | (skip, None) => Ok (None, Driver h (v_des v) skip)
        | (skip, Some e) =>
            match (match v_des v with
                   | None => de_init des h e
                   | Some d => de_next des d h e
                   end) with
            | Panic => Panic
            | Err k => Err k
            | Ok (out, h') =>
                match unconsumed skip (o_any out) (into_event (o_ev out)) with
                | Panic => Panic
                | Err k => Err k
                | Ok skip' =>
                    match o_art out with
                    | ANone => Ok (None, Driver h' None skip')
                    | AData t => Ok (Some t, Driver h' None skip')
                    | ADes d => Ok (None, Driver h' (Some d) skip')
                    end
                end
            end
        end
    end.

  (** deserialize.rs 1356-1364 / 1372-1380 [deserialize_sync], [deserialize_async]
      on a finite stretch of the reader's events: a value and the unread events,
      an error, or the driver still waiting for more events. *)
  Inductive run_result :=
  | RDone (t : T) (rest : list event)
  | RErr (k : kind)
  | RPanic
  | RMore (v : driver D).

  Fixpoint driver_run (v : driver D) (evs : list event) : run_result :=
    match evs with
    | [] => RMore v
    | e :: evs' =>
        match driver_step v e with
        | Panic => RPanic
        | Err k => RErr k
        | Ok (Some t, _) => RDone t evs'
        | Ok (None, v') => driver_run v' evs'
        end
    end.
End Driver.
Arguments RDone {T D} _ _.
Arguments RErr {T D} _.
Arguments RPanic {T D}.
Arguments RMore {T D} _.

(** ** Histories of the helper *)

(** What the driver and the deserializers do with the helper: feed an event or
    ask for the namespaces. *)
Inductive dop := DEvent (e : event) | DAsk.

Definition dh_step (h : dhelper) (o : dop) : option dhelper :=
  match o with
  | DEvent e => dh_event h e
  | DAsk => Some (snd (namespaces h))
  end.

Fixpoint dh_run (h : dhelper) (ops : list dop) : option dhelper :=
  match ops with
  | [] => Some h
  | o :: ops' =>
      match dh_step h o with
      | Some h' => dh_run h' ops'
      | None => None
      end
  end.

(** ** ErrorInfo *)

(** quick_xml/error.rs 364-382 [ErrorInfo]: element names innermost first (the
    Rust vector has them outermost first). *)
Section ErrorInfo.
  (** [String::from_utf8_lossy]. *)
  Variable lossy : bytes -> bytes.

  Definition error_info_update (els : list bytes) (e : event) : list bytes :=
    match e with
    | EStart n _ => lossy n :: els
    | EEnd _ => tl els
    | _ => els
    end.

  (** The vector after a sequence of events, outermost first. *)
  Definition error_path (evs : list event) : list bytes :=
    rev (fold_left error_info_update evs []).
End ErrorInfo.
