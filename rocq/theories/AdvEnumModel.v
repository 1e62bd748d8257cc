(** Enumerations whose values are compared as values of their base type ([Config::with_advanced_enums]):
    what is generated for them (xsd-parser/src/pipeline/generator/data/enumeration.rs,
    generator/context.rs 181-370 [make_value_renderer], src/misc/qname.rs,
    renderer/steps/enum_const.rs), and how they are read and written
    (renderer/steps/quick_xml/deserialize.rs 628-783, serialize.rs 394-470).

    Left out: the facets of enumerations and simple types (SimpleModel), prohibited variants, the names of variants and
    constants (NameModel). *)
From Coq Require Import ZArith.
From Verif Require Export Base SerHelperModel.
From Verif Require Import QNameModel NumberModel.
Local Open Scope string_scope.

(** models/meta/mod.rs [MetaTypeVariant]: the base of an enumeration.  [TQName]: the custom type of [with_qname_type]; [TFromStr]:
    the custom types of interpreter/mod.rs 469-547; [TRef]: a type definition that stands for one value; [TOther]: unions, lists and
    types that are not simple. *)
Inductive emeta :=
| TString | TStr | TInt (signed : bool) (bits : nat) | TFloat | TBool | TQName | TFromStr
| TSimple (base : emeta) | TEnum (base : option emeta) | TRef (target : emeta) | TOther.

(** enumeration.rs 143-159 [get_simple_enum_base_type]. *)
Fixpoint simple_base (m : emeta) : option emeta :=
  match m with
  | TString => Some TStr
  | TStr | TInt _ _ | TFloat | TBool | TQName | TFromStr | TSimple _ => Some m
  | TEnum (Some b) => simple_base b
  | TEnum None | TRef _ | TOther => None
  end.

Inductive mode := Literal | Constant.
Inductive gerror := InvalidDefaultValue.

Section AdvEnum.
  (** Floating-point numbers: [FromStr], [==], [is_finite], [Display]. *)
  Variable F : Type.
  Variable fparse : string -> option F.
  Variable feqb : F -> F -> bool.
  Variable ffinite : F -> bool.
  Variable fprint : F -> string.
  (** [str::from_utf8]. *)
  Variable utf8_ok : string -> bool.

  (** The generated expressions: a literal [b"..."], [T(...)], constants. *)
  Inductive code := CBytes (s : string) | CWrap (c : code) | CInt (z : Z) | CFloat (f : F) | CBool (b : bool) | CStr (s : string) | CQName (q : qname).

  (** misc/qname.rs 12-54 [default]; [ns]: the namespaces in scope in the schema. *)
  Definition qname_constant (ns : list (string * string)) (s : string) : qname :=
    let q := qname_from_bytes s in
    QName s (q_index q) (match q_prefix q with Some p => assoc p ns | None => None end).

  (** context.rs 181-370, for the modes [Literal] and [Constant].  [quote!] panics for floating-point numbers that are not finite.
      Simplification: a simple type on top of an enumeration is taken to give no value. *)
  Fixpoint make (ns : list (string * string)) (m : emeta) (s : string) (k : mode) : outcome gerror code :=
    match m with
    | TInt g bits =>
        match int_from_str (int_min g bits) (int_max g bits) s with
        | Some z => Ok (match k with Literal => CBytes s | Constant => CInt z end)
        | None => Err InvalidDefaultValue
        end
    | TFloat =>
        match k with
        | Literal => Err InvalidDefaultValue
        | Constant =>
            match fparse s with
            | Some f => if ffinite f then Ok (CFloat f) else Panic
            | None => Err InvalidDefaultValue
            end
        end
    | TBool =>
        match k with
        | Literal => Err InvalidDefaultValue
        | Constant =>
            if existsb (String.eqb (lowercase s)) ["true"; "yes"; "1"] then Ok (CBool true)
            else if existsb (String.eqb (lowercase s)) ["false"; "no"; "0"] then Ok (CBool false)
            else Err InvalidDefaultValue
        end
    | TStr => Ok (match k with Literal => CBytes s | Constant => CStr s end)
    | TQName => match k with Literal => Err InvalidDefaultValue | Constant => Ok (CQName (qname_constant ns s)) end
    | TSimple b => match make ns b s k with Ok c => Ok (CWrap c) | r => r end
    | TRef b => make ns b s k
    | TString | TFromStr | TEnum _ | TOther => Err InvalidDefaultValue
    end.

  (** models/meta/enumeration.rs [EnumerationMetaVariant]: the value in the schema, the namespaces at its place, and whether the
      variant has a type (then it takes all other texts). *)
  Record variant := Variant { v_name : string; v_ns : list (string * string); v_other : bool }.

  (** models/data/enumeration.rs [EnumerationVariantValue]. *)
  Inductive vvalue := VNone | VLiteral (c : code) | VConstant (c : code).

  (** enumeration.rs 29-33 and 104-132. *)
  Definition variant_value (advanced : bool) (m : emeta) (v : variant) : outcome gerror vvalue :=
    match (if advanced then simple_base m else None) with
    | None => Ok VNone
    | Some b =>
        match make (v_ns v) b (v_name v) Literal with
        | Ok c => Ok (VLiteral c)
        | Panic => Panic
        | Err _ =>
            match make (v_ns v) b (v_name v) Constant with
            | Ok c => Ok (VConstant c)
            | Err _ => Ok VNone
            | Panic => Panic
            end
        end
    end.

  (** proc_macro2 [Literal::byte_string]: how a literal is printed. *)
  Definition escape_byte (c : ascii) (next : string) : string :=
    let n := nat_of_ascii c in
    if Nat.eqb n 0 then
      match next with
      | String d _ => if (Nat.leb 48 (nat_of_ascii d) && Nat.leb (nat_of_ascii d) 55)%bool then "\x00" else "\0"
      | _ => "\0"
      end
    else if Nat.eqb n 9 then "\t"
    else if Nat.eqb n 10 then "\n"
    else if Nat.eqb n 13 then "\r"
    else if Nat.eqb n 34 then String "\" (String """" "")
    else if Nat.eqb n 92 then "\\"
    else if (Nat.leb 32 n && Nat.leb n 126)%bool then String c ""
    else String "\" (String "x" (String (hex_digit_upper (n / 16)) (String (hex_digit_upper (n mod 16)) ""))).
  Fixpoint escape (s : string) : string :=
    match s with "" => "" | String c s' => escape_byte c s' ++ escape s' end.
  Definition byte_string (s : string) : string := String "b" (String """" (escape s ++ String """" "")).

  (** [trim_start_matches]. *)
  Fixpoint trim_start (c : ascii) (s : string) : string :=
    match s with String d s' => if Ascii.eqb c d then trim_start c s' else s | "" => "" end.

  (** proc_macro2 [TokenStream::from_str] for a single string literal: [\x] takes two digits for a number below 128.  Simplification:
      [\u], [\'] and escaped line ends, which are never printed, are not read. *)
  Definition hex_value (c : ascii) : option nat :=
    let n := nat_of_ascii c in
    if (Nat.leb 48 n && Nat.leb n 57)%bool then Some (n - 48)
    else if (Nat.leb 65 n && Nat.leb n 70)%bool then Some (n - 55)
    else if (Nat.leb 97 n && Nat.leb n 102)%bool then Some (n - 87)
    else None.
  Fixpoint lex_body (s : string) : option string :=
    match s with
    | "" => None
    | String c r =>
        if Ascii.eqb c """" then match r with "" => Some "" | _ => None end
        else if Ascii.eqb c "\" then
          match r with
          | String e r' =>
              if Ascii.eqb e "x" then
                match r' with
                | String h (String l r'') =>
                    match hex_value h, hex_value l with
                    | Some a, Some b => if Nat.ltb a 8 then option_map (String (ascii_of_nat (16 * a + b))) (lex_body r'') else None
                    | _, _ => None
                    end
                | _ => None
                end
              else if Ascii.eqb e "n" then option_map (String "010") (lex_body r')
              else if Ascii.eqb e "r" then option_map (String "013") (lex_body r')
              else if Ascii.eqb e "t" then option_map (String "009") (lex_body r')
              else if Ascii.eqb e "0" then option_map (String "000") (lex_body r')
              else if (Ascii.eqb e "\" || Ascii.eqb e """")%bool then option_map (String e) (lex_body r')
              else None
          | "" => None
          end
        else option_map (String c) (lex_body r)
    end.
  Definition lex_str (s : string) : option string :=
    match s with String c r => if Ascii.eqb c """" then lex_body r else None | "" => None end.

  (** renderer/steps/enum_const.rs 58-72: the constant of a variant with a literal, which is [unwrap]ped.  [None]: a panic. *)
  Definition str_constant (s : string) : option string := lex_str (trim_start "b" (byte_string s)).

  (** The generated variants.  [constants]: the step [EnumConstants] is used.  Literals inside of [T(...)] are printed as they are, and
      do not compile. *)
  Definition render_constant (x : vvalue) : bool :=
    match x with
    | VLiteral (CBytes s) => match str_constant s with Some _ => true | None => false end
    | _ => true
    end.
  Fixpoint generate (advanced constants : bool) (m : emeta) (vs : list variant) : outcome gerror (list (variant * vvalue)) :=
    match vs with
    | [] => Ok []
    | v :: vs' =>
        match variant_value advanced m v with
        | Ok x =>
            if (constants && negb (render_constant x))%bool then Panic
            else match generate advanced constants m vs' with Ok l => Ok ((v, x) :: l) | r => r end
        | Err e => Err e
        | Panic => Panic
        end
    end.

  (** Whether rustc accepts the code.  [constants]: the constants are rendered; [partial_eq]: the generated types implement [PartialEq].
      deserialize.rs 757-766: a literal is a pattern for a slice of bytes, and 777-781: the values of simple types are compared.
      enum_const.rs 58-77: the constants. *)
  Definition compiles (constants partial_eq : bool) (l : list (variant * vvalue)) : bool :=
    forallb (fun e =>
      match snd e with
      | VNone => true
      | VLiteral (CBytes _) => constants
      | VLiteral _ => false
      | VConstant c => constants && negb (v_other (fst e)) && match c with CWrap _ => partial_eq | _ => true end
      end)%bool l.

  (** ** Reading *)

  (** The namespaces in scope in the document ([""]: the default namespace); [DeserializeHelper::resolve] (library deserialize.rs 681-687). *)
  Definition resolve (scope : list (string * string)) (raw : string) : option string :=
    match split_colon raw with Some (p, _) => assoc p scope | None => assoc "" scope end.

  (** [DeserializeBytes] of the base. *)
  Fixpoint read_base (scope : list (string * string)) (m : emeta) (s : string) : option code :=
    match m with
    | TInt g bits => option_map CInt (int_from_str (int_min g bits) (int_max g bits) s)
    | TFloat => option_map CFloat (fparse s)
    | TBool => option_map CBool (bool_from_bytes s)
    | TString | TStr => Some (CStr s)
    | TQName => Some (CQName (qname_from_helper (resolve scope) s))
    | TSimple b => option_map CWrap (read_base scope b s)
    | TRef b => read_base scope b s
    | TFromStr | TEnum _ | TOther => None
    end.

  (** [PartialEq]. *)
  Fixpoint code_eqb (a b : code) : bool :=
    match a, b with
    | CInt x, CInt y => Z.eqb x y
    | CFloat x, CFloat y => feqb x y
    | CBool x, CBool y => Bool.eqb x y
    | CStr x, CStr y => String.eqb x y
    | CQName x, CQName y => qname_eq x y
    | CWrap x, CWrap y => code_eqb x y
    | _, _ => false
    end.

  (** deserialize.rs 628-783.  [ROther]: the text is handed to the type of the variant. *)
  Inductive result := RVariant (i : nat) | ROther (i : nat) | RError.

  Fixpoint first_index {A} (p : A -> bool) (l : list A) : option nat :=
    match l with
    | [] => None
    | x :: l' => if p x then Some 0 else option_map S (first_index p l')
    end.
  Fixpoint last_index {A} (p : A -> bool) (l : list A) : option nat :=
    match l with
    | [] => None
    | x :: l' => match last_index p l' with Some i => Some (S i) | None => if p x then Some 0 else None end
    end.
  Definition matches_literal (s : string) (e : variant * vvalue) : bool :=
    negb (v_other (fst e)) &&
    match snd e with
    | VNone => String.eqb (v_name (fst e)) s
    | VLiteral (CBytes b) => String.eqb b s
    | _ => false
    end.
  Definition matches_constant (x : code) (e : variant * vvalue) : bool :=
    match snd e with VConstant c => code_eqb x c | _ => false end.
  Definition read (advanced : bool) (scope : list (string * string)) (m : emeta) (l : list (variant * vvalue)) (s : string) : result :=
    match first_index (matches_literal s) l with
    | Some i => RVariant i
    | None =>
        match match (if advanced then simple_base m else None) with
              | Some b => match read_base scope b s with Some x => first_index (matches_constant x) l | None => None end
              | None => None
              end with
        | Some i => RVariant i
        | None => match last_index (fun e => v_other (fst e)) l with Some i => ROther i | None => RError end
        end
    end.

  (** ** Writing *)

  (** [SerializeBytes] of a constant. *)
  Fixpoint write_code (h : helper) (c : code) : outcome qname_error string :=
    match c with
    | CInt z => Ok (write_int z)
    | CFloat f => Ok (fprint f)
    | CBool b => Ok (write_bool b)
    | CStr s | CBytes s => Ok s
    | CQName q => qname_serialize utf8_ok h q
    | CWrap c' => write_code h c'
    end.
  (** serialize.rs 433-470.  A value whose variant has a type is written by that type: [None]. *)
  Definition write (h : helper) (e : variant * vvalue) : option (outcome qname_error string) :=
    if v_other (fst e) then None
    else Some match snd e with
    | VNone => Ok (v_name (fst e))
    | VLiteral (CBytes s) => match str_constant s with Some t => Ok t | None => Panic end
    | VLiteral c | VConstant c => write_code h c
    end.
End AdvEnum.
Arguments CBytes {F}. Arguments CWrap {F}. Arguments CInt {F}. Arguments CFloat {F}. Arguments CBool {F}. Arguments CStr {F}. Arguments CQName {F}.
Arguments VNone {F}. Arguments VLiteral {F}. Arguments VConstant {F}.
Arguments compiles {F}.
