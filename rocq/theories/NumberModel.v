(** The Rust types that stand for the built-in types of XML Schema
    (xsd-parser/src/pipeline/interpreter/mod.rs 186-306 and 469-547, xsd-parser/src/lib.rs
    221-226), and how their values are read and written
    (xsd-parser-types/src/quick_xml/deserialize.rs 468-546, serialize.rs 201-247).

    The binary types have their own model (BinModel).  Names of types are
    those in the namespace of XML Schema. *)
From Coq Require Import ZArith.
From Verif Require Export Base.
From Verif Require Import AnySimpleModel.
Local Open Scope string_scope.

(** Rust types.  [RInt signed bits], [isize] and [usize] have the width of a pointer. *)
Inductive rust :=
| RInt (signed : bool) (bits : nat) | RSize (signed : bool) | RNonZeroSize (signed : bool)
| RBigInt | RBigUint | RF32 | RF64 | RBool | RString | RStrings | RBinary.

(** interpreter/mod.rs 227-303. *)
Definition default_typedefs : list (string * rust) :=
  [("string", RString); ("boolean", RBool); ("decimal", RF64); ("float", RF32); ("double", RF64);
   ("duration", RString); ("dateTime", RString); ("time", RString); ("date", RString); ("gYearMonth", RString); ("gYear", RString);
   ("gMonthDay", RString); ("gMonth", RString); ("gDay", RString); ("hexBinary", RBinary); ("base64Binary", RBinary);
   ("anyURI", RString); ("QName", RString); ("NOTATION", RString);
   ("long", RInt true 64); ("int", RInt true 32); ("integer", RInt true 32); ("short", RInt true 16); ("byte", RInt true 8);
   ("negativeInteger", RSize true); ("nonPositiveInteger", RSize true);
   ("unsignedLong", RInt false 64); ("unsignedInt", RInt false 32); ("unsignedShort", RInt false 16); ("unsignedByte", RInt false 8);
   ("positiveInteger", RSize false); ("nonNegativeInteger", RSize false);
   ("normalizedString", RString); ("token", RString); ("language", RString); ("NMTOKEN", RString); ("Name", RString);
   ("NCName", RString); ("ID", RString); ("IDREF", RString); ("ENTITY", RString); ("anySimpleType", RString);
   ("NMTOKENS", RStrings); ("IDREFS", RStrings); ("ENTITIES", RStrings)].

(** interpreter/mod.rs 497-502 [with_num_big_int], 542-543 [with_nonzero_typedefs]. *)
Definition big_typedefs : list (string * rust) :=
  [("integer", RBigInt); ("negativeInteger", RBigInt); ("nonPositiveInteger", RBigInt);
   ("positiveInteger", RBigUint); ("nonNegativeInteger", RBigUint)].
Definition nonzero_typedefs : list (string * rust) :=
  [("positiveInteger", RNonZeroSize false); ("negativeInteger", RNonZeroSize true)].

(** lib.rs 221-226, interpreter/state.rs 126-151 [add_type]: later definitions replace earlier ones.
    [big], [nonzero]: the flags [WITH_NUM_BIG_INT] and [NONZERO_TYPEDEFS]. *)
Definition typedef (big nonzero : bool) (name : string) : option rust :=
  option_map snd (find (fun e => String.eqb (fst e) name)
    ((if nonzero then nonzero_typedefs else []) ++ (if big then big_typedefs else []) ++ default_typedefs)%list).

(** ** [FromStr] of the Rust library *)

Definition digit (c : ascii) : option Z :=
  let n := nat_of_ascii c in if (Nat.leb 48 n && Nat.leb n 57)%bool then Some (Z.of_nat n - 48)%Z else None.

Definition checked (lo hi z : Z) : option Z := if (Z.leb lo z && Z.leb z hi)%bool then Some z else None.

(** core/num [from_str_radix]: digit by digit, with checked arithmetic. *)
Fixpoint digits_loop (neg : bool) (lo hi : Z) (s : string) (acc : Z) : option Z :=
  match s with
  | EmptyString => Some acc
  | String c s' =>
      match digit c with
      | None => None
      | Some d =>
          match checked lo hi (acc * 10)%Z with
          | None => None
          | Some m =>
              match checked lo hi (if neg then m - d else m + d)%Z with
              | None => None
              | Some r => digits_loop neg lo hi s' r
              end
          end
      end
  end.
Definition int_from_str (lo hi : Z) (s : string) : option Z :=
  match s with
  | EmptyString => None
  | String c s' =>
      if Ascii.eqb c "+" then match s' with "" => None | _ => digits_loop false lo hi s' 0 end
      else if Ascii.eqb c "-" then
        match s' with
        | "" => None
        | _ => if Z.ltb lo 0 then digits_loop true lo hi s' 0 else None
        end
      else digits_loop false lo hi s 0
  end.

(** [BigInt::from_str], [BigUint::from_str] of the crate [num]: the same without bounds.
    Simplification: [num] also reads digits with underscores between them. *)
Fixpoint big_digits (s : string) (acc : Z) : option Z :=
  match s with
  | EmptyString => Some acc
  | String c s' => match digit c with None => None | Some d => big_digits s' (acc * 10 + d)%Z end
  end.
Definition big_from_str (signed : bool) (s : string) : option Z :=
  match s with
  | EmptyString => None
  | String c s' =>
      if Ascii.eqb c "+" then match s' with "" => None | _ => big_digits s' 0 end
      else if Ascii.eqb c "-" then
        match s' with
        | "" => None
        | _ => if signed then option_map Z.opp (big_digits s' 0) else None
        end
      else big_digits s 0
  end.

(** core/num/dec2flt: which texts are numbers.  Simplification: only whether a text is read, not the number that it
    is rounded to. *)
Fixpoint span_digits (s : string) : nat * string :=
  match s with
  | EmptyString => (0, s)
  | String c s' => match digit c with Some _ => let (n, r) := span_digits s' in (S n, r) | None => (0, s) end
  end.
Definition exponent_ok (s : string) : bool :=
  match s with
  | EmptyString => true
  | String c s' =>
      (Ascii.eqb c "e" || Ascii.eqb c "E") &&
      let s'' := match s' with String g r => if (Ascii.eqb g "+" || Ascii.eqb g "-")%bool then r else s' | _ => s' end in
      match span_digits s'' with (S _, EmptyString) => true | _ => false end
  end%bool.
Definition lower (c : ascii) : ascii :=
  let n := nat_of_ascii c in if (Nat.leb 65 n && Nat.leb n 90)%bool then ascii_of_nat (n + 32) else c.
Fixpoint lowercase (s : string) : string := match s with "" => "" | String c s' => String (lower c) (lowercase s') end.
Definition special (s : string) : bool :=
  let l := lowercase s in (String.eqb l "inf" || String.eqb l "infinity" || String.eqb l "nan")%bool.
Definition float_from_str (s : string) : bool :=
  let s := match s with String g r => if (Ascii.eqb g "+" || Ascii.eqb g "-")%bool then r else s | _ => s end in
  special s ||
  (let (n, r) := span_digits s in
   match r with
   | String "." r' => let (k, r'') := span_digits r' in Nat.ltb 0 (n + k) && exponent_ok r''
   | _ => Nat.ltb 0 n && exponent_ok r
   end)%bool.

(** deserialize.rs 468-478: [bool]. *)
Definition bool_from_bytes (s : string) : option bool :=
  if existsb (String.eqb s) ["TRUE"; "True"; "true"; "YES"; "Yes"; "yes"; "1"] then Some true
  else if existsb (String.eqb s) ["FALSE"; "False"; "false"; "NO"; "No"; "no"; "0"] then Some false
  else None.

(** ** Reading *)

Definition pow2 (bits : nat) : Z := (2 ^ Z.of_nat bits)%Z.
Definition int_min (signed : bool) (bits : nat) : Z := if signed then (- pow2 (bits - 1))%Z else 0%Z.
Definition int_max (signed : bool) (bits : nat) : Z := if signed then (pow2 (bits - 1) - 1)%Z else (pow2 bits - 1)%Z.

Inductive rvalue := VInt (z : Z) | VFloat (s : string) | VBool (b : bool) | VString (s : string) | VOther.

(** deserialize.rs 486-546.  [w]: the width of a pointer. *)
Definition read_number (w : nat) (t : rust) (s : string) : option rvalue :=
  match t with
  | RInt g bits => option_map VInt (int_from_str (int_min g bits) (int_max g bits) s)
  | RSize g => option_map VInt (int_from_str (int_min g w) (int_max g w) s)
  | RNonZeroSize g =>
      match int_from_str (int_min g w) (int_max g w) s with
      | Some z => if Z.eqb z 0 then None else Some (VInt z)
      | None => None
      end
  | RBigInt => option_map VInt (big_from_str true s)
  | RBigUint => option_map VInt (big_from_str false s)
  | RF32 | RF64 => if float_from_str s then Some (VFloat s) else None
  | RBool => option_map VBool (bool_from_bytes s)
  | RString => Some (VString s)
  | RStrings | RBinary => Some VOther
  end.
Definition read_type (big nonzero : bool) (w : nat) (name s : string) : option rvalue :=
  match typedef big nonzero name with Some t => read_number w t s | None => None end.

(** ** Writing *)

(** serialize.rs 201-247: [to_string].  Floating-point numbers: only those that are not finite. *)
Inductive fspecial := FInf (negative : bool) | FNaN.
Definition write_int (z : Z) : string := print_int z.
Definition write_bool (b : bool) : string := if b then "true" else "false".
Definition write_special (x : fspecial) : string :=
  match x with FInf false => "inf" | FInf true => "-inf" | FNaN => "NaN" end.
