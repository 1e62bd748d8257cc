(** Independent specification of values of unknown simple type. *)
From Coq Require Import ZArith.
From Verif Require Import Utf8 SerHelperModel DeModel TextModel TextSpec AnySimpleModel.
Local Open Scope string_scope.

(** Text that has no white space at its ends. *)
Definition clean (s : bytes) : Prop := utf8_valid s = true /\ trimmed_of s s.

(** Text without white space. *)
Definition solid (s : bytes) : Prop :=
  utf8_valid s = true /\ s <> "" /\ forall a c b, s = a ++ c ++ b -> ~ In c space_chars.

(** Printable ASCII without blank. *)
Definition graphic (s : bytes) : Prop :=
  forall c, In c (list_ascii_of_string s) -> 33 <= nat_of_ascii c <= 126.

(** A name without prefix. *)
Definition bare_name (q : qname) : Prop :=
  graphic (q_raw q) /\ ~ In ":"%char (list_ascii_of_string (q_raw q)) /\ q_index q = None.

(** Values the Rust type can hold and whose text is not changed by the rules for
    white space. *)
Definition keeps_text {Num : Type} (num_parse : bytes -> bytes -> option Num) (num_print : bytes -> Num -> bytes)
  (v : asv Num) : Prop :=
  match v with
  | VText ty s => In ty text_types /\ clean s
  | VInt ty z => exists lo hi, In (ty, (lo, hi)) int_types /\ (lo <= z <= hi)%Z
  | VNum ty n => In ty num_types /\ clean (num_print ty n) /\ num_parse ty (num_print ty n) = Some n
  | VQName q => bare_name q
  | VList ty items => In ty list_types /\ Forall solid items
  | VUnknown ty s _ => ty = None /\ clean s
  | VBool _ | VHex _ | VBase64 _ => True
  end.

(** Equal values, except for the namespaces remembered for unknown types. *)
Definition same_value {Num : Type} (v w : asv Num) : Prop :=
  match v, w with
  | VUnknown t s _, VUnknown t' s' _ => t = t' /\ s = s'
  | _, _ => v = w
  end.

(** A name without prefix has the namespace that is the default one where it is read. *)
Definition default_namespace (r : resolver) : option bytes :=
  match find_prefix None (r_bindings r) with Some EmptyString => None | o => o end.
Definition named_in {Num : Type} (r : resolver) (v : asv Num) : Prop :=
  match v with VQName q => q_ns q = default_namespace r | _ => True end.

(** Where the value is written and read: an [xsi] the writer regards as declared
    is declared for the reader, and a prefix the writer has for the XML Schema
    namespace is a plain name. *)
Definition fit (h : helper) (dh : dhelper) : Prop :=
  (forall e, find_ns XSI_NS (h_ns h) = Some e -> ne_prefix e = Some "xsi" ->
     find_prefix (Some "xsi") (r_bindings (d_res (dh_pop dh))) = Some XSI_NS) /\
  (forall e p, find_ns XS_NS (h_ns h) = Some e -> ne_prefix e = Some p ->
     graphic p /\ ~ In ":"%char (list_ascii_of_string p) /\ ~ In "&"%char (list_ascii_of_string p)).

(** The local name of the type of a value that is not unknown. *)
Definition asv_local {Num : Type} (v : asv Num) : option bytes :=
  match v with
  | VText ty _ | VInt ty _ | VNum ty _ | VList ty _ => Some ty
  | VBool _ => Some "boolean"
  | VHex _ => Some "hexBinary"
  | VBase64 _ => Some "base64Binary"
  | VQName _ => Some "QName"
  | VUnknown _ _ _ => None
  end.

(** The local names of the built-in types with a representation of their own. *)
Definition built_in (x : bytes) : Prop :=
  In x (text_types ++ num_types ++ list_types ++ map fst int_types ++ ["boolean"; "hexBinary"; "base64Binary"; "QName"]).
