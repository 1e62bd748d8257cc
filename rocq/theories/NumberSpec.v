(** Independent specification of the lexical and value spaces of the numeric built-in types and of
    [boolean] (XML Schema, part 2, 3.2 and 3.3). *)
From Coq Require Import ZArith Ascii String List.
Import ListNotations.
Local Open Scope string_scope.

Definition is_digit (c : ascii) (d : Z) : Prop := (0 <= d <= 9)%Z /\ nat_of_ascii c = 48 + Z.to_nat d.

(** Decimal numerals: the first digit counts most. *)
Inductive numeral : string -> Z -> Prop :=
| Num_one c d : is_digit c d -> numeral (String c "") d
| Num_more c d s v : is_digit c d -> numeral s v -> numeral (String c s) (d * 10 ^ Z.of_nat (String.length s) + v)%Z.

(** 3.3.13: an optional sign and a numeral. *)
Inductive int_literal : string -> Z -> Prop :=
| Lit_none s v : numeral s v -> int_literal s v
| Lit_plus s v : numeral s v -> int_literal ("+" ++ s) v
| Lit_minus s v : numeral s v -> int_literal ("-" ++ s) (- v)%Z.

(** 3.3.13-3.3.25: the bounds. *)
Definition bounds : list (string * (option Z * option Z)) :=
  [("integer", (None, None)); ("nonPositiveInteger", (None, Some 0%Z)); ("negativeInteger", (None, Some (-1)%Z));
   ("nonNegativeInteger", (Some 0%Z, None)); ("positiveInteger", (Some 1%Z, None));
   ("long", (Some (-9223372036854775808)%Z, Some 9223372036854775807%Z));
   ("int", (Some (-2147483648)%Z, Some 2147483647%Z)); ("short", (Some (-32768)%Z, Some 32767%Z)); ("byte", (Some (-128)%Z, Some 127%Z));
   ("unsignedLong", (Some 0%Z, Some 18446744073709551615%Z)); ("unsignedInt", (Some 0%Z, Some 4294967295%Z));
   ("unsignedShort", (Some 0%Z, Some 65535%Z)); ("unsignedByte", (Some 0%Z, Some 255%Z))].
Definition in_bounds (b : option Z * option Z) (z : Z) : Prop :=
  (forall l, fst b = Some l -> (l <= z)%Z) /\ (forall h, snd b = Some h -> (z <= h)%Z).

(** The text [s] is valid for the type, with value [z]. *)
Definition denotes_int (name s : string) (z : Z) : Prop :=
  int_literal s z /\ exists b, In (name, b) bounds /\ in_bounds b z.

Definition has_minus (s : string) : Prop := exists r, s = "-" ++ r.

(** 3.2.2. *)
Definition denotes_bool (s : string) (b : bool) : Prop :=
  if b then s = "true" \/ s = "1" else s = "false" \/ s = "0".

(** 3.2.3-3.2.5: the texts of [decimal], [float] and [double]. *)
Definition all_digits (s : string) : Prop := forall c, In c (list_ascii_of_string s) -> exists d, is_digit c d.
Definition signed_text (s r : string) : Prop := s = r \/ s = "+" ++ r \/ s = "-" ++ r.
Definition unsigned_decimal (r : string) : Prop :=
  (r <> "" /\ all_digits r) \/
  (exists a b, r = a ++ "." ++ b /\ all_digits a /\ all_digits b /\ (a <> "" \/ b <> "")).
Definition decimal_text (s : string) : Prop := exists r, signed_text s r /\ unsigned_decimal r.
Definition double_text (s : string) : Prop :=
  decimal_text s \/
  (exists m e x, (e = "e" \/ e = "E") /\ s = m ++ e ++ x /\ decimal_text m /\
     exists n, signed_text x n /\ n <> "" /\ all_digits n) \/
  s = "INF" \/ s = "-INF" \/ s = "NaN".
