(** Model of [SerializeHelper] (xsd-parser-types/src/quick_xml/serialize.rs
    757-949) and of [QName] serialisation (xsd-parser-types/src/xml/qname.rs). *)
From Verif Require Export Base.
Local Open Scope string_scope.

(** serialize.rs 763-768 [struct NamespaceEntry]. *)
Record ns_entry := NsEntry {
  ne_level : nat;
  ne_prefix : option bytes;
  ne_ns : bytes
}.

(** serialize.rs 757-761 [struct SerializeHelper].  The Rust vector grows at its
    end; here the newest entry comes first. *)
Record helper := Helper {
  h_level : nat;
  h_ns : list ns_entry
}.

(** serialize.rs 756 [#[derive(Default)]]. *)
Definition helper_default : helper := Helper 0 [].

(** serialize.rs 773-775 [begin_ns_scope]. *)
Definition begin_ns_scope (h : helper) : helper :=
  Helper (S (h_level h)) (h_ns h).

(** The pop loop of serialize.rs 783-791: drop newest entries while their level
    exceeds the given one. *)
Fixpoint drop_outdated (level : nat) (l : list ns_entry) : list ns_entry :=
  match l with
  | [] => []
  | e :: l' => if Nat.ltb level (ne_level e) then drop_outdated level l' else l
  end.

(** serialize.rs 780-792 [end_ns_scope] ([saturating_sub] is [pred]). *)
Definition end_ns_scope (h : helper) : helper :=
  let level := pred (h_level h) in
  Helper level (drop_outdated level (h_ns h)).

(** serialize.rs 936-938: name of the xmlns attribute for a prefix. *)
Definition xmlns_key (prefix : option bytes) : bytes :=
  match prefix with
  | None => "xmlns"
  | Some p => "xmlns:" ++ p
  end.

(** serialize.rs 933-948 [add_namespace_entry]; returns the attributes pushed
    onto the [BytesStart].  [push_attribute] with a pair of byte slices writes
    the value as it is, without escaping. *)
Definition add_namespace_entry (h : helper) (prefix : option bytes) (ns : bytes)
  : helper * list attr :=
  (Helper (h_level h) (NsEntry (h_level h) prefix ns :: h_ns h),
   [(xmlns_key prefix, ns)]).

(** The reverse searches of serialize.rs 804-809, 840-848 and 924-928: the newest
    entry for a namespace. *)
Fixpoint find_ns (ns : bytes) (l : list ns_entry) : option ns_entry :=
  match l with
  | [] => None
  | e :: l' => if String.eqb (ne_ns e) ns then Some e else find_ns ns l'
  end.

(** serialize.rs 839 [prefix.filter(|p| !p.0.is_empty())]. *)
Definition filter_prefix (p : option bytes) : option bytes :=
  match p with
  | Some EmptyString => None
  | _ => p
  end.

(** serialize.rs 833-851 [write_xmlns]; returns the helper and the attributes
    pushed. *)
Definition write_xmlns (h : helper) (prefix : option bytes) (ns : bytes)
  : helper * list attr :=
  let prefix := filter_prefix prefix in
  match find_ns ns (h_ns h) with
  | Some e => if opt_eqb (ne_prefix e) prefix then (h, [])
              else add_namespace_entry h prefix ns
  | None => add_namespace_entry h prefix ns
  end.

(** serialize.rs 866 [tag.split_once(':')] *)
Fixpoint split_colon (s : string) : option (string * string) :=
  match s with
  | EmptyString => None
  | String c s' =>
      if Ascii.eqb c ":" then Some (EmptyString, s')
      else match split_colon s' with
           | Some (a, b) => Some (String c a, b)
           | None => None
           end
  end.

(** serialize.rs 859-875 [write_xmlns_for_tag]. *)
Definition write_xmlns_for_tag (h : helper) (tag : bytes) (ns : bytes)
  : helper * list attr :=
  match split_colon tag with
  | Some (p, _) => write_xmlns h (Some p) ns
  | None => write_xmlns h None ns
  end.

(** serialize.rs 920-931 [get_namespace_prefix]; [None] is
    [Err(UnknownNamespace)]. *)
Definition get_namespace_prefix (h : helper) (ns : bytes) : option (option bytes) :=
  match find_ns ns (h_ns h) with
  | Some e => Some (ne_prefix e)
  | None => None
  end.

(** ** QName *)

(** qname.rs 19-23 [struct QName]. [q_index] is the byte index of the colon. *)
Record qname := QName {
  q_raw : bytes;
  q_index : option nat;
  q_ns : option bytes
}.

(** [raw.iter().position(|x| *x == b':')], qname.rs 51 and 64. *)
Fixpoint colon_pos (s : string) : option nat :=
  match s with
  | EmptyString => None
  | String c s' =>
      if Ascii.eqb c ":" then Some 0
      else match colon_pos s' with Some n => Some (S n) | None => None end
  end.

(** qname.rs 46-58 [from_bytes]. *)
Definition qname_from_bytes (raw : bytes) : qname := QName raw (colon_pos raw) None.

(** qname.rs 82-86 [with_namespace]. *)
Definition with_namespace (q : qname) (ns : bytes) : qname :=
  QName (q_raw q) (q_index q) (Some ns).

(** qname.rs 95-97 [take_namespace] (the value left behind). *)
Definition without_namespace (q : qname) : qname := QName (q_raw q) (q_index q) None.

(** [&raw[0..n]] and [&raw[n..]] (for [n <= len]). *)
Fixpoint str_take (n : nat) (s : string) : string :=
  match n, s with
  | S n', String c s' => String c (str_take n' s')
  | _, _ => EmptyString
  end.
Fixpoint str_drop (n : nat) (s : string) : string :=
  match n, s with
  | S n', String _ s' => str_drop n' s'
  | 0, _ => s
  | _, EmptyString => EmptyString
  end.

(** qname.rs 101-105 [prefix]. *)
Definition q_prefix (q : qname) : option bytes :=
  match q_index q with
  | Some i => Some (str_take i (q_raw q))
  | None => None
  end.

(** qname.rs 115-119 [local_name]. *)
Definition q_local (q : qname) : bytes :=
  match q_index q with
  | Some i => str_drop (S i) (q_raw q)
  | None => q_raw q
  end.

(** serialize.rs 799-829 [add_qname_namespace]; returns the helper, the
    attributes pushed and the updated name. *)
Definition add_qname_namespace (h : helper) (q : qname)
  : helper * list attr * qname :=
  match q_ns q with
  | None => (h, [], q)
  | Some ns =>
      match find_ns ns (h_ns h) with
      | Some e =>
          let raw := match ne_prefix e with
                     | Some p => p ++ ":" ++ q_local q
                     | None => q_local q
                     end in
          (h, [], with_namespace (qname_from_bytes raw) ns)
      | None =>
          let (h', a) := add_namespace_entry h (q_prefix q) ns in
          (h', a, without_namespace q)
      end
  end.

(** misc/raw_byte_str.rs 70-80 [format_utf8_slice], as the UTF-8 bytes written:
    control bytes become [\xNN], bytes >= 0x80 are written as the Unicode
    character with that number (two UTF-8 bytes). *)
Definition hex_digit_upper (n : nat) : ascii :=
  if Nat.ltb n 10 then ascii_of_nat (48 + n) else ascii_of_nat (55 + n).
Definition is_ascii_control (c : ascii) : bool :=
  Nat.ltb (nat_of_ascii c) 32 || Nat.eqb (nat_of_ascii c) 127.
Definition format_byte (c : ascii) : string :=
  let n := nat_of_ascii c in
  if is_ascii_control c then
    String "\" (String "x" (String (hex_digit_upper (n / 16))
      (String (hex_digit_upper (n mod 16)) EmptyString)))
  else if Nat.ltb n 128 then String c EmptyString
  else String (ascii_of_nat (192 + n / 64)) (String (ascii_of_nat (128 + n mod 64)) EmptyString).
Fixpoint format_utf8_slice (s : string) : string :=
  match s with
  | EmptyString => EmptyString
  | String c s' => format_byte c ++ format_utf8_slice s'
  end.

(** Errors of [QName::serialize_bytes]. *)
Inductive qname_error := UnknownNamespace (ns : bytes) | InvalidUtf8.

Section QNameSer.
  (** [str::from_utf8(b).is_ok()]; every predicate is allowed. *)
  Variable utf8_ok : bytes -> bool.

  (** qname.rs 130-152 [serialize_bytes]. *)
  Definition qname_serialize (h : helper) (q : qname) : outcome qname_error bytes :=
    let prefix : outcome qname_error (option bytes) :=
      match q_ns q with
      | Some ns => match get_namespace_prefix h ns with
                   | Some p => Ok p
                   | None => Err (UnknownNamespace ns)
                   end
      | None => Ok (q_prefix q)
      end in
    match prefix with
    | Ok prefix =>
        if utf8_ok (q_local q) then
          Ok (match prefix with
              | Some p => format_utf8_slice p ++ ":" ++ q_local q
              | None => q_local q
              end)
        else Err InvalidUtf8
    | Err e => Err e
    | Panic => Panic
    end.
End QNameSer.

(** ** Histories of helper calls *)

(** The public mutating calls of the helper. *)
Inductive hop : Type :=
| HBegin
| HEnd
| HWrite (prefix : option bytes) (ns : bytes)
| HWriteTag (tag ns : bytes)
| HQName (q : qname).

(** One call: new helper and the attributes pushed onto the current tag. *)
Definition hstep (h : helper) (o : hop) : helper * list attr :=
  match o with
  | HBegin => (begin_ns_scope h, [])
  | HEnd => (end_ns_scope h, [])
  | HWrite p ns => write_xmlns h p ns
  | HWriteTag tag ns => write_xmlns_for_tag h tag ns
  | HQName q => let '(h', a, _) := add_qname_namespace h q in (h', a)
  end.

Fixpoint hrun (h : helper) (ops : list hop) : helper :=
  match ops with
  | [] => h
  | o :: ops' => hrun (fst (hstep h o)) ops'
  end.
