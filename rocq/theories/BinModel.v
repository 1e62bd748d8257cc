(** Binary values: [HexBinary], [HexString] (xsd-parser-types/src/xml/hex.rs),
    [Base64Binary], [Base64String] (xsd-parser-types/src/xml/base64.rs) and the
    hexadecimal code of [AnySimpleType]
    (xsd-parser-types/src/xml/any_simple_type.rs). *)
From Verif Require Export Base.
Local Open Scope string_scope.

(** ** const_hex (external) *)

(** Four bits, most significant first. *)
Definition nibble := (bool * bool * bool * bool)%type.

Definition high (c : ascii) : nibble :=
  match c with Ascii _ _ _ _ e f g h => (h, g, f, e) end.
Definition low (c : ascii) : nibble :=
  match c with Ascii a b c d _ _ _ _ => (d, c, b, a) end.
Definition byte_of (x y : nibble) : ascii :=
  match x, y with (h, g, f, e), (d, c, b, a) => Ascii a b c d e f g h end.

Definition bit (b : bool) : nat := if b then 1 else 0.
Definition nibble_value (x : nibble) : nat :=
  match x with (d, c, b, a) => 8 * bit d + 4 * bit c + 2 * bit b + bit a end.

Definition digit_of (table : string) (x : nibble) : ascii :=
  match String.get (nibble_value x) table with Some c => c | None => "0"%char end.
Definition lower_digit := digit_of "0123456789abcdef".
Definition upper_digit := digit_of "0123456789ABCDEF".

(** [char::to_digit(16)] *)
Definition nibble_of_nat (n : nat) : nibble :=
  (Nat.testbit n 3, Nat.testbit n 2, Nat.testbit n 1, Nat.testbit n 0).
Definition hex_digit (c : ascii) : option nibble :=
  let n := nat_of_ascii c in
  if (Nat.leb 48 n && Nat.leb n 57)%bool then Some (nibble_of_nat (n - 48))
  else if (Nat.leb 65 n && Nat.leb n 70)%bool then Some (nibble_of_nat (n - 55))
  else if (Nat.leb 97 n && Nat.leb n 102)%bool then Some (nibble_of_nat (n - 87))
  else None.

(** [const_hex::encode]: two lower-case digits per byte. *)
Fixpoint hex_encode (b : bytes) : string :=
  match b with
  | EmptyString => ""
  | String c b' => String (lower_digit (high c)) (String (lower_digit (low c)) (hex_encode b'))
  end.

(** [const_hex::decode]: an optional [0x] prefix is dropped; odd length and other
    characters are errors. *)
Fixpoint hex_decode_raw (s : string) : option bytes :=
  match s with
  | EmptyString => Some ""
  | String c (String d s') =>
      match hex_digit c, hex_digit d, hex_decode_raw s' with
      | Some x, Some y, Some b => Some (String (byte_of x y) b)
      | _, _, _ => None
      end
  | String _ EmptyString => None
  end.
Definition strip_0x (s : string) : string :=
  match s with
  | String "0" (String "x" s') => s'
  | _ => s
  end.
Definition hex_decode (s : string) : option bytes := hex_decode_raw (strip_0x s).

(** ** base64, [general_purpose::STANDARD] (external): standard alphabet, padding
    written and required, unused bits must be zero. *)

Definition sextet := (bool * bool * bool * bool * bool * bool)%type.

Definition alphabet : string := "ABCDEFGHIJKLMNOPQRSTUVWXYZabcdefghijklmnopqrstuvwxyz0123456789+/".
Definition sextet_value (x : sextet) : nat :=
  match x with (f, e, d, c, b, a) =>
    32 * bit f + 16 * bit e + 8 * bit d + 4 * bit c + 2 * bit b + bit a end.
Definition b64_char (x : sextet) : ascii :=
  match String.get (sextet_value x) alphabet with Some c => c | None => "A"%char end.
Definition sextet_of_nat (n : nat) : sextet :=
  (Nat.testbit n 5, Nat.testbit n 4, Nat.testbit n 3, Nat.testbit n 2, Nat.testbit n 1, Nat.testbit n 0).
Definition b64_sextet (c : ascii) : option sextet :=
  match String.index 0 (String c "") alphabet with
  | Some n => Some (sextet_of_nat n)
  | None => None
  end.

(** The four sextets of three bytes. *)
Definition sx1 (a : ascii) : sextet :=
  match a with Ascii _ _ c d e f g h => (h, g, f, e, d, c) end.
Definition sx2 (a b : ascii) : sextet :=
  match a, b with Ascii a0 a1 _ _ _ _ _ _, Ascii _ _ _ _ e f g h => (a1, a0, h, g, f, e) end.
Definition sx3 (b c : ascii) : sextet :=
  match b, c with Ascii a0 a1 a2 a3 _ _ _ _, Ascii _ _ _ _ _ _ g h => (a3, a2, a1, a0, h, g) end.
Definition sx4 (c : ascii) : sextet :=
  match c with Ascii a b c d e f _ _ => (f, e, d, c, b, a) end.

Fixpoint b64_encode (b : bytes) : string :=
  match b with
  | EmptyString => ""
  | String x EmptyString =>
      String (b64_char (sx1 x)) (String (b64_char (sx2 x "000")) "==")
  | String x (String y EmptyString) =>
      String (b64_char (sx1 x)) (String (b64_char (sx2 x y)) (String (b64_char (sx3 y "000")) "="))
  | String x (String y (String z b')) =>
      String (b64_char (sx1 x)) (String (b64_char (sx2 x y))
        (String (b64_char (sx3 y z)) (String (b64_char (sx4 z)) (b64_encode b'))))
  end.

(** The bytes of consecutive sextets. *)
Definition by1 (p q : sextet) : ascii :=
  match p, q with (h, g, f, e, d, c), (b, a, _, _, _, _) => Ascii a b c d e f g h end.
Definition by2 (q r : sextet) : ascii :=
  match q, r with (_, _, h, g, f, e), (d, c, b, a, _, _) => Ascii a b c d e f g h end.
Definition by3 (r s : sextet) : ascii :=
  match r, s with (_, _, _, _, h, g), (f, e, d, c, b, a) => Ascii a b c d e f g h end.
(** The bits of the last sextet that no byte uses. *)
Definition rest4 (q : sextet) : bool := match q with (_, _, c, d, e, f) => c || d || e || f end.
Definition rest2 (r : sextet) : bool := match r with (_, _, _, _, e, f) => e || f end.

Fixpoint b64_decode (s : string) : option bytes :=
  match s with
  | EmptyString => Some ""
  | String a (String b (String c (String d s'))) =>
      match b64_sextet a, b64_sextet b with
      | Some p, Some q =>
          if (Ascii.eqb c "=" && Ascii.eqb d "=")%bool then
            match s' with
            | EmptyString => if rest4 q then None else Some (String (by1 p q) "")
            | _ => None
            end
          else
            match b64_sextet c with
            | None => None
            | Some r =>
                if Ascii.eqb d "=" then
                  match s' with
                  | EmptyString => if rest2 r then None else Some (String (by1 p q) (String (by2 q r) ""))
                  | _ => None
                  end
                else
                  match b64_sextet d, b64_decode s' with
                  | Some t, Some l => Some (String (by1 p q) (String (by2 q r) (String (by3 r t) l)))
                  | _, _ => None
                  end
            end
      | _, _ => None
      end
  | _ => None
  end.

(** ** The types *)

(** hex.rs 112-118 [HexBinary::serialize_bytes]. *)
Definition hex_binary_write (b : bytes) : string := hex_encode b.
(** hex.rs 123-126 [HexBinary::deserialize_bytes]. *)
Definition hex_binary_read (s : bytes) : option bytes := hex_decode s.
(** hex.rs 20-22 [HexString::len]. *)
Definition hex_string_len (s : string) : nat := Nat.div (String.length s) 2.

(** base64.rs 127-133 [Base64Binary::serialize_bytes]. *)
Definition base64_binary_write (b : bytes) : string := b64_encode b.
(** base64.rs 138-143 [Base64Binary::deserialize_bytes]. *)
Definition base64_binary_read (s : bytes) : option bytes := b64_decode s.

(** [str::trim_end_matches('=')] *)
Fixpoint trim_end_eq (s : string) : string :=
  match s with
  | EmptyString => ""
  | String c s' =>
      match trim_end_eq s' with
      | EmptyString => if Ascii.eqb c "=" then "" else String c ""
      | t => String c t
      end
  end.
(** base64.rs 23-26 [Base64String::len]. *)
Definition base64_string_len (s : string) : nat := Nat.div (String.length (trim_end_eq s) * 3) 4.

(** any_simple_type.rs 162-166, 292-299: [{b:02X}] per byte. *)
Fixpoint any_hex_write (b : bytes) : string :=
  match b with
  | EmptyString => ""
  | String c b' => String (upper_digit (high c)) (String (upper_digit (low c)) (any_hex_write b'))
  end.

(** [str::is_char_boundary] at the start of the given rest of the string. *)
Definition boundary (s : string) : bool :=
  match s with
  | EmptyString => true
  | String c _ => let n := nat_of_ascii c in negb (Nat.leb 128 n && Nat.leb n 191)
  end.

(** [u8::from_str_radix(two characters, 16)]: a leading [+] is accepted. *)
Definition radix16 (c d : ascii) : option ascii :=
  match (if Ascii.eqb c "+" then Some (false, false, false, false) else hex_digit c), hex_digit d with
  | Some x, Some y => Some (byte_of x y)
  | _, _ => None
  end.

(** any_simple_type.rs 476-483: [content[i..i+2]] for every even [i]; slicing
    panics beyond the end and inside a character, a parse error stops the
    iteration. *)
Fixpoint any_hex_read (s : string) : outcome unit bytes :=
  match s with
  | EmptyString => Ok ""
  | String _ EmptyString => Panic
  | String c (String d s') =>
      if (boundary s && boundary s')%bool then
        match radix16 c d with
        | None => Err tt
        | Some b =>
            match any_hex_read s' with
            | Ok l => Ok (String b l)
            | Err k => Err k
            | Panic => Panic
            end
        end
      else Panic
  end.
