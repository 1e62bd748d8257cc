(** Specification: which namespaces a kept map must hold. *)
From Verif Require Export Utf8 ScopeModel DeSpec TextModel.
Local Open Scope string_scope.

(** The map holds exactly the prefixes bound inside the given elements, each
    once; the default namespace has the empty key. *)
Definition holds_scope (m : nsmap) (els : list (bytes * list attr)) : Prop :=
  (forall k ns, In (k, ns) m <-> bound (filter_prefix (Some k)) ns els) /\ NoDup (map fst m).

(** The history [ops] of the helper is legal and leads to [h]. *)
Definition leads_to (ops : list dop) (h : dhelper) : Prop :=
  well_nested (events_of ops) /\ dh_run dhelper_default ops = Some h.

(** What the wrapper may make of a step of the wrapped deserializer inside the
    elements [els]: a value gets the namespaces, all else stays. *)
Definition wrapped {T D} (els : list (bytes * list attr)) (r : dresult T D) (r' : dresult (scoped T) D) : Prop :=
  match r, r' with
  | Ok (o, _), Ok (o', _) =>
      o_ev o' = o_ev o /\ o_any o' = o_any o /\
      match o_art o, o_art o' with
      | ANone, ANone => True
      | ADes d, ADes d' => d' = d
      | AData t, AData s => s_inner s = t /\ holds_scope (s_ns s) els
      | _, _ => False
      end
  | Err k, Err k' => k' = k
  | Panic, Panic => True
  | _, _ => False
  end.

(** The same for a single value. *)
Definition wrapped_value {T} (els : list (bytes * list attr)) (r : outcome kind (T * dhelper))
    (r' : outcome kind (scoped T * dhelper)) : Prop :=
  match r, r' with
  | Ok (t, _), Ok (s, _) => s_inner s = t /\ holds_scope (s_ns s) els
  | Err k, Err k' => k' = k
  | Panic, Panic => True
  | _, _ => False
  end.

(** A parser leaves the helper alone except for asking for the namespaces. *)
Definition parse_respects {T} (parse : dhelper -> bytes -> outcome kind (T * dhelper)) : Prop :=
  forall h raw t h', parse h raw = Ok (t, h') -> helper_ok h h'.

(** A simple type whose value is its text, reading an element with declarations
    of its own inside one that shadows them. *)
Definition keep (h : dhelper) (raw : bytes) : outcome kind (bytes * dhelper) := Ok (raw, h).
Definition value_des : deser bytes bytes := content_deser (fun _ => None) utf8_valid keep.
Definition blank (t : bytes) : option bool := Some (String.eqb t "").
Definition doc (ns : bytes) : list event :=
  [EStart "v" [("xmlns:p", ns); ("xmlns", "urn:d")]; EText "p:x"; EEnd "v"; EEof].
