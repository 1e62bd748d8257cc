(** What hexadecimal and base64 texts denote, independently of the codecs. *)
From Verif Require Export Base.
Local Open Scope string_scope.

(** XML Schema 3.2.15: a hexBinary text has two hexadecimal digits per octet. *)
Definition hexval (c : ascii) : option nat :=
  match String.index 0 (String c "") "0123456789abcdef" with
  | Some n => Some n
  | None => String.index 0 (String c "") "0123456789ABCDEF"
  end.

Inductive hex_text : string -> bytes -> Prop :=
| hex_nil : hex_text "" ""
| hex_cons c d s x y o b :
    hexval c = Some x -> hexval d = Some y -> nat_of_ascii o = 16 * x + y ->
    hex_text s b -> hex_text (String c (String d s)) (String o b).

(** RFC 4648: the bits of the octets, six at a time, most significant first. *)
Fixpoint bits_of (width n : nat) : list bool :=
  match width with
  | 0 => []
  | S w => Nat.testbit n w :: bits_of w n
  end.

Fixpoint octet_bits (b : bytes) : list bool :=
  match b with
  | EmptyString => []
  | String c b' => bits_of 8 (nat_of_ascii c) ++ octet_bits b'
  end.

Definition base64_value (c : ascii) : option nat :=
  String.index 0 (String c "") "ABCDEFGHIJKLMNOPQRSTUVWXYZabcdefghijklmnopqrstuvwxyz0123456789+/".

Fixpoint char_bits (s : string) : option (list bool) :=
  match s with
  | EmptyString => Some []
  | String c s' =>
      match base64_value c, char_bits s' with
      | Some n, Some l => Some (bits_of 6 n ++ l)%list
      | _, _ => None
      end
  end.

(** The canonical base64 text of [b]: characters for its bits, the last one filled
    with zero bits, padded with [=] to a multiple of four characters. *)
Definition base64_text (s : string) (b : bytes) : Prop :=
  exists body pad fill,
    s = body ++ pad /\
    (pad, fill) = match Nat.modulo (String.length b) 3 with
                  | 0 => ("", [])
                  | 1 => ("==", repeat false 4)
                  | _ => ("=", repeat false 2)
                  end /\
    Nat.modulo (String.length s) 4 = 0 /\
    char_bits body = Some (octet_bits b ++ fill)%list.

(** All characters are ASCII. *)
Fixpoint all_ascii (s : string) : bool :=
  match s with EmptyString => true | String c s' => Nat.ltb (nat_of_ascii c) 128 && all_ascii s' end.
