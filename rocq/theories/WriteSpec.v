(** What the document of a value looks like, and what reading it back needs.  Independent
    of the state machines. *)
From Verif Require Import Utf8 WriteModel DocSpec GenSpec TextSpec.
Local Open Scope string_scope.
Local Open Scope list_scope.

Section Written.
  Context {T A : Type}.
  Notation val := (val T A).
  Variable ff : flat_flags.
  Variable no_attrs : A.
  Variable env : nat -> tdef.
  Variable tag : option bytes -> bytes -> bytes.
  Variable opening : nat -> bool -> bytes -> val -> helper -> outcome kind (list attr) * helper.
  Variable closing : nat -> helper -> helper.
  Variable to_bytes : nat -> T -> helper -> outcome kind (option bytes) * helper.

  (** [writes v h evs h']: the events of [v]; [h], [h'] are the helper before and after. *)
  Definition writes (X : Type) : Type := X -> helper -> list event -> helper -> Prop.

  (** The events of several values, one after the other. *)
  Fixpoint each {X} (one : writes X) (xs : list X) (h : helper) (evs : list event) (h' : helper) : Prop :=
    match xs with
    | [] => evs = [] /\ h' = h
    | x :: xs' => exists evs1 h1 evs2, evs = evs1 ++ evs2 /\ one x h evs1 h1 /\ each one xs' h1 evs2 h'
    end.
  Fixpoint in_turn {X} (parts : list (writes X)) (xs : list X) (h : helper) (evs : list event) (h' : helper)
    : Prop :=
    match parts, xs with
    | [], [] => evs = [] /\ h' = h
    | part :: parts', x :: xs' =>
        exists evs1 h1 evs2, evs = evs1 ++ evs2 /\ part x h evs1 h1 /\ in_turn parts' xs' h1 evs2 h'
    | _, _ => False
    end.

  (** The text of a value of a simple type; nothing if it has none. *)
  Definition text_events (data : option bytes) : list event :=
    match data with
    | None | Some EmptyString => []
    | Some s => [EText (escape s)]
    end.
  Definition text_ok (data : option bytes) : bool :=
    match data with Some s => negb (contains_cdata_end s) | None => true end.

  Section Parts.
    (** The elements of a type, with their name; [root]: it is the root element. *)
    Variable element : nat -> bool -> bytes -> writes val.

    (** A group: the values of its particles in the order of the schema, or the one
        alternative that was chosen. *)
    Definition group_writes (c : compositor) (parts : list (writes (list val))) : writes val :=
      fun v h evs h' =>
        match v with
        | VStruct _ fields => is_choice c = false /\ in_turn parts fields h evs h'
        | VEnum i vals => is_choice c = true /\
            exists part, nth_error parts i = Some part /\ part vals h evs h'
        | _ => False
        end.

    (** One occurrence of a particle. *)
    Fixpoint particle_writes (root : bool) (p : particle) : writes val :=
      match p with
      | PElement _ _ ns name ty => element ty root (tag ns name)
      | PGroup _ _ c ps => fun v h evs h' =>
          exists w, v = packed ff no_attrs c w /\
            group_writes c (map (fun p => each (particle_writes false p)) ps) w h evs h'
      end.
    (** All occurrences.  A single element of the choice that is the root is told that it
        is the root, too. *)
    Definition field_writes (root : bool) (p : particle) : writes (list val) :=
      each (particle_writes (root && once (p_min p) (p_max p)) p).
  End Parts.

  (** An element of type [ty], nested at most [n] deep: start tag, content, end tag; an
      empty element if the type has no content. *)
  Fixpoint written (n : nat) (ty : nat) (root : bool) (name : bytes) (v : val)
      (h : helper) (evs : list event) (h' : helper) : Prop :=
    match n with
    | 0 => False
    | S n' =>
        match env ty with
        | TSimple => exists t data, v = VText t /\ to_bytes ty t h = (Ok data, h') /\
            text_ok data = true /\
            evs = match data with
                  | None => [EEmpty name []]
                  | _ => EStart name [] :: text_events data ++ [EEnd name]
                  end
        | TSimpleContent => exists a t attrs h1 data h2, v = VSimple a t /\
            opening ty root name v h = (Ok attrs, h1) /\ to_bytes ty t h1 = (Ok data, h2) /\
            text_ok data = true /\
            evs = EStart name attrs :: text_events data ++ [EEnd name] /\ h' = closing ty h2
        | TComplex attributed min max c ps =>
            if nothing_allowed max ps then
              exists a attrs h1, v = VStruct a [] /\ opening ty root name v h = (Ok attrs, h1) /\
                evs = [EEmpty name attrs] /\ h' = closing ty h1
            else
              exists attrs h1 body h2, opening ty root name v h = (Ok attrs, h1) /\
                (if direct ff attributed min max c then
                   group_writes c (map (field_writes (written n') (is_choice c && root)) ps) v h1 body h2
                 else exists a vals, v = VStruct a [vals] /\
                   each (group_writes c (map (field_writes (written n') false) ps)) vals h1 body h2) /\
                evs = EStart name attrs :: body ++ [EEnd name] /\ h' = closing ty h2
        end
    end.

  (** ** Values of a type *)

  (** The text of an element. *)
  Definition val_text (v : val) : option T :=
    match v with VText t | VSimple _ t => Some t | _ => None end.

  (** The values a Rust value of the generated type can have; every element in them is
      [ok]. *)
  Variable ok : nat -> val -> Prop.
  Definition fits_occ (o : occurs) {X} (xs : list X) : Prop :=
    match o with
    | ONone => False
    | OSingle => length xs = 1
    | OOptional => length xs <= 1
    | ODynamic => True
    | OStatic n => length xs = n
    end.

  Section TypedParts.
    Variable element : nat -> val -> Prop.
    Definition group_typed (c : compositor) (parts : list (list val -> Prop)) (v : val) : Prop :=
      match v with
      | VStruct _ fields => is_choice c = false /\ Forall2 (fun part vals => part vals) parts fields
      | VEnum i vals => is_choice c = true /\ exists part, nth_error parts i = Some part /\ part vals
      | _ => False
      end.
    Fixpoint particle_typed (p : particle) (v : val) : Prop :=
      match p with
      | PElement _ _ _ _ ty => element ty v
      | PGroup _ _ c ps => exists w, v = packed ff no_attrs c w /\
          group_typed c (map (fun p vals => fits_occ (occ_of p) vals /\ Forall (particle_typed p) vals) ps) w
      end.
    Definition field_typed (p : particle) (vals : list val) : Prop :=
      fits_occ (occ_of p) vals /\ Forall (particle_typed p) vals.
  End TypedParts.

  Fixpoint typed (n : nat) (ty : nat) (v : val) : Prop :=
    match n with
    | 0 => False
    | S n' => ok ty v /\
        match env ty with
        | TSimple => exists t, v = VText t
        | TSimpleContent => exists a t, v = VSimple a t
        | TComplex attributed min max c ps =>
            if nothing_allowed max ps then exists a, v = VStruct a []
            else if direct ff attributed min max c then group_typed c (map (field_typed (typed n')) ps) v
            else exists a vals, v = VStruct a [vals] /\ fits_occ (from_occurs min max) vals /\
                   Forall (group_typed c (map (field_typed (typed n')) ps)) vals
        end
    end.
End Written.

(** ** Reading back *)

(** The elements declared in a particle. *)
Fixpoint elements_in (p : particle) : list (label * nat) :=
  match p with
  | PElement _ _ ns name ty => [((ns, name), ty)]
  | PGroup _ _ _ ps => flat_map elements_in ps
  end.
Definition declared (env : nat -> tdef) (ty0 : nat) (l : label) (ty : nat) : Prop :=
  match env ty0 with
  | TComplex _ _ _ _ ps => In (l, ty) (flat_map elements_in ps)
  | _ => False
  end.

(** Elements of one type with the same local name are in the same namespace; [xs:all] is
    the whole content of a type, occurs at most once and has only elements. *)
Definition is_element (p : particle) : bool := match p with PElement _ _ _ _ _ => true | _ => false end.
Fixpoint no_all (p : particle) : bool :=
  match p with
  | PElement _ _ _ _ _ => true
  | PGroup _ _ c ps => forallb no_all ps && match c with CAll => false | _ => true end
  end.
Definition clear_names (ps : list particle) : Prop :=
  forall l l' ty ty', In (l, ty) (flat_map elements_in ps) -> In (l', ty') (flat_map elements_in ps) ->
    snd l = snd l' -> l = l'.
Definition readable_type (t : tdef) : Prop :=
  match t with
  | TSimple | TSimpleContent => True
  | TComplex _ _ max c ps => clear_names ps /\
      match c with
      | CAll => forallb is_element ps = true /\ match max with Bounded m => m <= 1 | Unbounded => False end
      | _ => forallb no_all ps = true
      end
  end.

(** The name in a tag stands for the element, with these namespaces in scope. *)
Definition names (r : resolver) (name : bytes) (l : label) : Prop :=
  check_tag (DHelper 0 r [] false) (EStart name []) (fst l) (snd l) = true.

(** The type has attributes. *)
Definition attributed_type (t : tdef) : bool :=
  match t with TSimple => false | TSimpleContent => true | TComplex attributed _ _ _ _ => attributed end.

(** The helper differs at most in its cache. *)
Definition same_scope (h h' : dhelper) : Prop :=
  d_level h' = d_level h /\ d_res h' = d_res h /\ d_pending h' = d_pending h.

Section Back.
  Context {T A : Type}.
  Notation val := (val T A).
  Variable env : nat -> tdef.
  Variable tag : option bytes -> bytes -> bytes.
  Variable opening : nat -> bool -> bytes -> val -> helper -> outcome kind (list attr) * helper.
  Variable closing : nat -> helper -> helper.
  Variable to_bytes : nat -> T -> helper -> outcome kind (option bytes) * helper.
  Variable attrs_of : nat -> dhelper -> bytes -> list attr -> outcome kind (A * dhelper).
  Variable parse : nat -> dhelper -> bytes -> outcome kind (T * dhelper).

  (** The text and the attributes come from documents. *)
  Definition text_read (ty : nat) (t : T) : Prop :=
    exists d raw s d', trimmed_of raw s /\ parse ty d s = Ok (t, d').
  Definition attrs_read (ty : nat) (a : A) : Prop :=
    exists d name attrs d', attrs_of ty d name attrs = Ok (a, d').

  (** The attributes of [v] are read from the start tag. *)
  Definition attributes_back (ty : nat) (name : bytes) (attrs : list attr) (v : val) (r : resolver) : Prop :=
    forall d, d_res d = r -> exists a d', attrs_of ty d name attrs = Ok (a, d') /\ same_scope d d' /\
      match val_attrs v with Some b => a = b | None => True end.
  (** The text is read as [t]. *)
  Definition text_back (ty : nat) (data : option bytes) (t : T) (r : resolver) : Prop :=
    match data with Some s => utf8_valid s = true | None => True end /\
    forall d, d_res d = r -> exists d',
      parse ty d (match data with Some s => trim_ascii s | None => "" end) = Ok (t, d') /\ same_scope d d'.

  (** An element of type [ty] called [name] can be written here: as the root of the
      document, or in the content of an element of another type. *)
  Definition placed (top : nat * bytes) (within : option nat) (ty : nat) (root : bool) (name : bytes) : Prop :=
    match within with
    | None => root = true /\ (ty, name) = top
    | Some ty0 => exists l, declared env ty0 l ty /\ name = tag (fst l) (snd l)
    end.
  (** Its name stands for the elements declared there. *)
  Definition named_as (within : option nat) (ty : nat) (r : resolver) (name : bytes) : Prop :=
    forall ty0 l, within = Some ty0 -> declared env ty0 l ty -> name = tag (fst l) (snd l) -> names r name l.

  (** Tags and texts of a document with the root element [top] can be read back: [sync]
      relates the namespaces the serializer has declared to those in scope for the reader,
      before the root ([None]) and in the content of an element of a type. *)
  Record tags_back (top : nat * bytes) (sync : option nat -> helper -> resolver -> Prop) : Prop := {
    back_levels : forall w h r, sync w h r -> Forall (fun b => b_level b <= r_level r) (r_bindings r);
    (** a start tag with attributes *)
    back_open : forall w ty root name v h r attrs h1, sync w h r -> placed top w ty root name ->
      env ty <> TSimple ->
      match val_attrs v with Some a => attrs_read ty a | None => attributed_type (env ty) = false end ->
      opening ty root name v h = (Ok attrs, h1) ->
      closing ty h1 = h /\
      exists r1, resolver_push r attrs = Some r1 /\ sync (Some ty) h1 r1 /\ attributes_back ty name attrs v r1 /\
        named_as w ty r1 name;
    (** a start tag of a simple type *)
    back_plain : forall w h r, sync w h r -> exists r1, resolver_push r [] = Some r1 /\ sync w h r1 /\
      forall ty name, env ty = TSimple -> named_as w ty r1 name;
    (** texts *)
    back_text : forall w ty t h r data h1, sync w h r -> text_read ty t -> to_bytes ty t h = (Ok data, h1) ->
      h1 = h /\ text_back ty data t r
  }.
End Back.

(** ** Namespaces in scope *)

(** The prefix in front of a name. *)
Definition prefix_in (name : bytes) : option bytes :=
  match split_colon name with Some (p, _) => Some p | None => None end.
(** What a prefix is bound to for the serializer. *)
Fixpoint bound_to (p : option bytes) (l : list ns_entry) : option bytes :=
  match l with
  | [] => None
  | e :: l' => if opt_eqb (ne_prefix e) p then Some (ne_ns e) else bound_to p l'
  end.
(** The serializer and the reader have the same prefixes in scope. *)
Definition in_step (h : helper) (r : resolver) : Prop :=
  forall p, find_prefix p (r_bindings r) = bound_to p (h_ns h).

(** The prefix with which qualified elements of a namespace are written. *)
Definition used_prefix (cfg : wconfig) (ns : bytes) : option bytes :=
  if is_default cfg (Some ns) then None else wc_prefix cfg ns.

(** The namespaces declared on a start tag, if they are not yet in scope. *)
Definition declarations (cfg : wconfig) (ty : nat) (root : bool) (name : bytes)
    (collected : list (option bytes * bytes)) : list (option bytes * bytes) :=
  match tag_ops cfg ty root collected with
  | Some ops => map (fun op => match op with XTag ns => (prefix_in name, ns) | XFixed p ns => (p, ns) end) ops
  | None => []
  end.

Definition prefix_ok (p : option bytes) : Prop :=
  match p with Some q => ~ In q [""; "xml"; "xmlns"] | None => True end.
Definition namespace_ok (ns : bytes) : Prop := ~ In ns [""; XML_NS; XMLNS_NS].

(** Every prefix stands for one namespace in the whole document ([known]), and the
    namespaces that tags need are declared: [visible ty] are in scope in all elements of
    type [ty], because their start tags declare them or because they are in scope around. *)
Record well_scoped {V : Type} (cfg : wconfig) (collect : nat -> V -> list (option bytes * bytes))
    (env : nat -> tdef) (top : nat * bytes) (known : option bytes -> option bytes)
    (visible : nat -> option bytes * bytes -> Prop) : Prop := {
  known_ok : forall p ns, known p = Some ns -> prefix_ok p /\ namespace_ok ns;
  known_prefix : forall w ty root name v p ns, placed env (field_tag cfg) top w ty root name -> env ty <> TSimple ->
    In (p, ns) (declarations cfg ty root name (collect ty v)) -> known p = Some ns;
  visible_here : forall w ty root name v x, placed env (field_tag cfg) top w ty root name -> env ty <> TSimple ->
    visible ty x -> In x (declarations cfg ty root name (collect ty v)) \/
                    exists ty0, w = Some ty0 /\ visible ty0 x;
  (** an element is in a namespace that its start tag can use *)
  visible_tag : forall ty0 l ty, declared env ty0 l ty ->
    split_colon (snd l) = None /\
    match fst l with
    | None => True
    | Some ns =>
        match prefix_in (field_tag cfg (Some ns) (snd l)) with
        | Some p => visible (match env ty with TSimple => ty0 | _ => ty end) (Some p, ns)
        | None => True
        end
    end;
  colon_free : forall ns p, wc_prefix cfg ns = Some p -> split_colon p = None
}.

Section Attributes.
  Context {T A : Type}.
  Variable env : nat -> tdef.
  Variable write_attrs : nat -> A -> helper -> outcome kind (list attr) * helper.
  Variable to_bytes : nat -> T -> helper -> outcome kind (option bytes) * helper.
  Variable attrs_of : nat -> dhelper -> bytes -> list attr -> outcome kind (A * dhelper).
  Variable parse : nat -> dhelper -> bytes -> outcome kind (T * dhelper).

  Variable visible : nat -> option bytes * bytes -> Prop.

  Definition is_declaration (a : attr) : Prop := exists p, fst a = xmlns_key p.

  (** Attributes that were read can be written, and are read again behind declarations
      of namespaces. *)
  Definition attrs_again : Prop :=
    (forall ty a h, attrs_read attrs_of ty a -> exists attrs, write_attrs ty a h = (Ok attrs, h) /\
      Forall (fun x => xmlns_decl (fst x) = None) attrs /\
      forall d name decls, in_step h (d_res d) -> Forall is_declaration decls ->
        (forall x, visible ty x -> bound_to (fst x) (h_ns h) = Some (snd x)) ->
        exists d', attrs_of ty d name (decls ++ attrs) = Ok (a, d') /\ same_scope d d') /\
    (forall ty d name decls, attributed_type (env ty) = false -> Forall is_declaration decls ->
        exists a d', attrs_of ty d name decls = Ok (a, d') /\ same_scope d d').
  (** So can texts. *)
  Definition texts_again : Prop :=
    forall ty t h, text_read parse ty t -> exists data, to_bytes ty t h = (Ok data, h) /\ text_ok data = true /\
      forall r, in_step h r -> text_back parse ty data t r.
End Attributes.
