(** [AnySimpleType] (xsd-parser-types/src/xml/any_simple_type.rs).  The features
    [base64] and [quick-xml] are on. *)
From Coq Require Import ZArith Decimal DecimalString.
From Verif Require Export BinModel TextModel WrapModel QNameModel Utf8.
Local Open Scope string_scope.

Definition XS_NS : bytes := "http://www.w3.org/2001/XMLSchema".

(** ** Types *)

(** The variants of the Rust enum that carry a [String] (lines 54-102), by the
    local name their serializer writes and [finish_content] expects. *)
Definition text_types : list bytes :=
  ["string"; "duration"; "dateTime"; "time"; "date"; "gYearMonth"; "gYear"; "gMonthDay"; "gMonth"; "gDay";
   "anyURI"; "NOTATION"; "normalizedString"; "token"; "language"; "NMTOKEN"; "Name"; "NCName"; "ID"; "IDREF"; "ENTITY"].

(** Variants carrying a machine integer, with its range. *)
Definition int_types : list (bytes * (Z * Z)) :=
  [("long", (- 9223372036854775808, 9223372036854775807)%Z);
   ("int", (- 2147483648, 2147483647)%Z);
   ("short", (- 32768, 32767)%Z);
   ("byte", (- 128, 127)%Z);
   ("unsignedLong", (0, 18446744073709551615)%Z);
   ("unsignedInt", (0, 4294967295)%Z);
   ("unsignedShort", (0, 65535)%Z);
   ("unsignedByte", (0, 255)%Z)].

(** Variants carrying a floating-point number or, with the feature [num], an
    arbitrary-precision number. *)
Definition num_types : list bytes :=
  ["float"; "double"; "decimal"; "integer"; "positiveInteger"; "negativeInteger"; "nonNegativeInteger"; "nonPositiveInteger"].

(** Variants carrying a [Vec<String>]. *)
Definition list_types : list bytes := ["NMTOKENS"; "IDREFS"; "ENTITIES"].

Definition mem (x : bytes) (l : list bytes) : bool := existsb (String.eqb x) l.

(** ** Numbers *)

(** The decimal digits of [<integer>::from_str]. *)
Definition parse_digits (s : string) : option Z :=
  match NilZero.uint_of_string s with
  | Some u => Some (Z.of_N (N.of_uint u))
  | None => None
  end.

(** [<i64 and the like>::from_str]: optional [+], for signed types [-]. *)
Definition parse_int (lo hi : Z) (s : string) : option Z :=
  let z := match s with
           | String "-" s' =>
               if Z.ltb lo 0 then match parse_digits s' with Some z => Some (Z.opp z) | None => None end else None
           | String "+" s' => parse_digits s'
           | _ => parse_digits s
           end in
  match z with
  | Some z => if (Z.leb lo z && Z.leb z hi)%bool then Some z else None
  | None => None
  end.

(** [Display] of the integer types. *)
Definition print_int (z : Z) : string := NilZero.string_of_int (Z.to_int z).

(** ** Lists *)

(** The UTF-8 encodings of the characters with the property White_Space. *)
Definition space_chars : list string :=
  [" "; String "009" ""; String "010" ""; String "011" ""; String "012" ""; String "013" "";
   String "194" (String "133" ""); String "194" (String "160" "");
   String "225" (String "154" (String "128" ""));
   String "226" (String "128" (String "128" "")); String "226" (String "128" (String "129" ""));
   String "226" (String "128" (String "130" "")); String "226" (String "128" (String "131" ""));
   String "226" (String "128" (String "132" "")); String "226" (String "128" (String "133" ""));
   String "226" (String "128" (String "134" "")); String "226" (String "128" (String "135" ""));
   String "226" (String "128" (String "136" "")); String "226" (String "128" (String "137" ""));
   String "226" (String "128" (String "138" ""));
   String "226" (String "128" (String "168" "")); String "226" (String "128" (String "169" ""));
   String "226" (String "128" (String "175" "")); String "226" (String "129" (String "159" ""));
   String "227" (String "128" (String "128" ""))].

(** Length of the white-space character at the start of [s], 0 if there is none. *)
Definition space_len (s : string) : nat :=
  match find (fun c => starts_with c s) space_chars with
  | Some c => String.length c
  | None => 0
  end.

(** [str::split(char::is_whitespace)]; [skip] bytes of a separator are left. *)
Fixpoint split_space (skip : nat) (s : string) : list string :=
  match s with
  | EmptyString => [""]
  | String c s' =>
      match skip with
      | S k => split_space k s'
      | 0 =>
          match space_len s with
          | S k => "" :: split_space k s'
          | 0 => match split_space 0 s' with
                 | w :: ws => String c w :: ws
                 | [] => [String c ""]
                 end
          end
      end
  end.

(** any_simple_type.rs 620-625 [parse_vec]: [split_whitespace]. *)
Definition parse_vec (s : string) : list string :=
  filter (fun w => negb (String.eqb w "")) (split_space 0 s).

(** any_simple_type.rs 612-618 [format_vec]. *)
Definition format_vec (ws : list string) : string := String.concat " " ws.

Section AnySimple.
  (** Numbers that are not machine integers, with [FromStr] and [Display]. *)
  Context {Num : Type}.
  Variable num_parse : bytes -> bytes -> option Num.
  Variable num_print : bytes -> Num -> bytes.

  (** any_simple_type.rs 52-117 [enum AnySimpleType].  Simplification: one
      constructor per payload type; it carries the local name of its XML Schema
      type instead of there being one constructor for each name. *)
  Inductive asv : Type :=
  | VText (ty content : bytes)
  | VBool (b : bool)
  | VInt (ty : bytes) (z : Z)
  | VNum (ty : bytes) (n : Num)
  | VHex (b : bytes)
  | VBase64 (b : bytes)
  | VQName (q : qname)
  | VList (ty : bytes) (items : list bytes)
  | VUnknown (ty : option qname) (content : bytes) (ns : nsmap).

  (** any_simple_type.rs 126-188 [to_str]. *)
  Definition asv_text (v : asv) : bytes :=
    match v with
    | VText _ s => s
    | VBool b => if b then "true" else "false"
    | VInt _ z => print_int z
    | VNum ty n => num_print ty n
    | VHex b => any_hex_write b
    | VBase64 b => b64_encode b
    | VQName q => format_utf8_slice (q_raw q)
    | VList _ items => format_vec items
    | VUnknown _ s _ => s
    end.

  (** any_simple_type.rs 275-369: the type written, [xs:] and a local name. *)
  Definition asv_type (v : asv) : option qname :=
    let xs ty := Some (qname_from_bytes ("xs:" ++ ty)) in
    match v with
    | VText ty _ | VInt ty _ | VNum ty _ | VList ty _ => xs ty
    | VBool _ => xs "boolean"
    | VHex _ => xs "hexBinary"
    | VBase64 _ => xs "base64Binary"
    | VQName _ => xs "QName"
    | VUnknown ty _ _ => ty
    end.

  (** any_simple_type.rs 379-381 *)
  Definition type_name (v : asv) (q : qname) : qname :=
    match v with
    | VUnknown _ _ _ => q
    | _ => match q_ns q with None => with_namespace q XS_NS | Some _ => q end
    end.

  (** any_simple_type.rs 241-256 [enum AnySimpleTypeSerializer]. *)
  Inductive aser : Type :=
  | ABegin (name : bytes) (value : asv)
  | AContent (name content : bytes)
  | AEnd (name : bytes)
  | ADone.

  (** any_simple_type.rs 196-208 [serializer]. *)
  Definition asv_serializer (v : asv) (name : option bytes) : aser :=
    ABegin (match name with Some n => n | None => "Value" end) v.

  (** any_simple_type.rs 258-401 [next]. *)
  Definition aser_next (s : aser) (h : helper) : option (outcome kind event) * aser * helper :=
    match s with
    | ABegin name v =>
        let h := begin_ns_scope h in
        match asv_type v with
        | Some q =>
            let '(h1, a1, q1) := add_qname_namespace h (type_name v q) in
            let '(h2, a2) := write_xmlns h1 (Some "xsi") XSI_NS in
            (Some (Ok (EStart name (a1 ++ a2 ++ [("xsi:type", q_raw q1)])%list)), AContent name (asv_text v), h2)
        | None => (Some (Ok (EStart name [])), AContent name (asv_text v), h)
        end
    | AContent name content => (Some (Ok (EText (escape content))), AEnd name, h)
    | AEnd name => (Some (Ok (EEnd name)), ADone, h)
    | ADone => (None, ADone, h)
    end.

  (** qname.rs 63-72 [from_helper]. *)
  Definition qname_in (r : resolver) (raw : bytes) : qname :=
    qname_from_helper (fun raw => match fst (dh_resolve r raw false) with RBound ns => Some ns | _ => None end) raw.

  (** any_simple_type.rs 440-526 [finish_content]. *)
  Definition finish_any (h : dhelper) (ty : option bytes) (content : bytes) : outcome kind (asv * dhelper) :=
    let q := match ty with Some raw => Some (qname_in (d_res h) raw) | None => None end in
    let of_option {A} (f : A -> asv) (o : option A) : outcome kind (asv * dhelper) :=
      match o with Some x => Ok (f x, h) | None => Err (KInvalidData content) end in
    let unknown : outcome kind (asv * dhelper) := let (ns, h') := namespaces h in Ok (VUnknown q content ns, h') in
    match q with
    | None => unknown
    | Some t =>
        let x := q_local t in
        if mem x text_types then Ok (VText x content, h)
        else if String.eqb x "boolean" then
          of_option VBool (if String.eqb content "true" then Some true
                           else if String.eqb content "false" then Some false else None)
        else if String.eqb x "hexBinary" then
          match any_hex_read content with
          | Ok b => Ok (VHex b, h)
          | Err _ => Err (KInvalidData content)
          | Panic => Panic
          end
        else if String.eqb x "base64Binary" then of_option VBase64 (b64_decode content)
        else if String.eqb x "QName" then Ok (VQName (qname_in (d_res h) content), h)
        else if mem x num_types then of_option (VNum x) (num_parse x content)
        else if mem x list_types then Ok (VList x (parse_vec content), h)
        else match assoc x int_types with
             | Some (lo, hi) => of_option (VInt x) (parse_int lo hi content)
             | None => unknown
             end
    end.

  Variable charref : bytes -> option bytes.
  Variable utf8_ok : bytes -> bool.

  (** [String::deserialize_bytes] (deserialize.rs 486-507): checked UTF-8. *)
  Definition string_parse (h : dhelper) (b : bytes) : outcome kind (bytes * dhelper) :=
    if utf8_ok b then Ok (b, h) else Err KUtf8.

  (** any_simple_type.rs 546-556 with [read_attrib] (deserialize.rs 725-745): the
      loop over the attributes; [ty] is the type found so far. *)
  Fixpoint type_scan (r : resolver) (seen : list bytes) (ty : option bytes) (attrs : list attr)
    : outcome kind (option bytes) :=
    match attrs with
    | [] => Ok ty
    | (k, v) :: attrs' =>
        if existsb (String.eqb k) seen then Err (KAttr "duplicate")
        else
          match resolve_local_name r k XSI_NS with
          | Some l =>
              if String.eqb l "type" then
                match ty with
                | Some _ => Err (KDuplicateAttribute "type")
                | None =>
                    if utf8_ok v then
                      match unescape charref v with
                      | Some t => type_scan r (k :: seen) (Some t) attrs'
                      | None => Err KEscape
                      end
                    else Err KUtf8
                end
              else type_scan r (k :: seen) ty attrs'
          | None => type_scan r (k :: seen) ty attrs'
          end
    end.

  (** any_simple_type.rs 405-408: type and collected content. *)
  Definition astate : Type := (option bytes * bytes)%type.

  (** any_simple_type.rs 412-438 [handle_content_output]. *)
  Definition handle_content (ty : option bytes) (r : dresult bytes bytes) : dresult asv astate :=
    match r with
    | Err k => Err k
    | Panic => Panic
    | Ok (o, h) =>
        match o_art o with
        | ADes d => Ok (DOut (ADes (ty, d)) (o_ev o) false, h)
        | ANone => Ok (DOut ANone (o_ev o) false, h)
        | AData content =>
            match finish_any h ty content with
            | Ok (v, h') => Ok (DOut (AData v) (o_ev o) false, h')
            | Err k => Err k
            | Panic => Panic
            end
        end
    end.

  (** any_simple_type.rs 531-562 [init]. *)
  Definition any_init (h : dhelper) (e : event) : dresult asv astate :=
    match e with
    | EStart _ attrs | EEmpty _ attrs =>
        match type_scan (d_res h) [] None attrs with
        | Ok ty => handle_content ty (content_init string_parse h e)
        | Err k => Err k
        | Panic => Panic
        end
    | e => Ok (DOut ANone (DContinue e) false, h)
    end.

  (** any_simple_type.rs 564-571 [next]. *)
  Definition any_next (s : astate) (h : dhelper) (e : event) : dresult asv astate :=
    handle_content (fst s) (content_next charref utf8_ok string_parse (snd s) h e).

  (** any_simple_type.rs 573-577 [finish]. *)
  Definition any_finish (s : astate) (h : dhelper) : outcome kind (asv * dhelper) :=
    match content_finish string_parse (snd s) h with
    | Ok (content, h') => finish_any h' (fst s) content
    | Err k => Err k
    | Panic => Panic
    end.

  Definition any_deser : deser asv astate := Deser any_init any_next any_finish.
End AnySimple.
Arguments asv : clear implicits.
Arguments aser : clear implicits.
