(** Occurrence bounds (xsd-parser/src/models/schema/occurs.rs). *)
From Coq Require Import ZArith Decimal DecimalString.
From Verif Require Export Base.
Local Open Scope string_scope.

(** occurs.rs 13 [MinOccurs] is [usize]; occurs.rs 17-23 [enum MaxOccurs].
    Simplification: a [usize] is a [nat] here; the largest [usize] is the parameter
    [limit] of the arithmetic below. *)
Inductive max_occurs : Type := Unbounded | Bounded (n : nat).

Definition max_eq_dec (a b : max_occurs) : {a = b} + {a <> b}.
Proof. decide equality; apply Nat.eq_dec. Defined.
Definition max_eqb (a b : max_occurs) : bool := if max_eq_dec a b then true else false.

(** occurs.rs 91-95 [Default]. *)
Definition max_default : max_occurs := Bounded 1.

(** occurs.rs 74-83 [Ord::cmp]. *)
Definition max_cmp (a b : max_occurs) : comparison :=
  match a, b with
  | Bounded x, Bounded y => Nat.compare x y
  | Unbounded, Unbounded => Eq
  | Bounded _, Unbounded => Lt
  | Unbounded, Bounded _ => Gt
  end.
Definition max_leb (a b : max_occurs) : bool :=
  match max_cmp a b with Gt => false | _ => true end.

(** [Ord::max]: the second argument unless the first is larger. *)
Definition max_max (a b : max_occurs) : max_occurs :=
  match max_cmp a b with Gt => a | _ => b end.

Section Machine.
  (** The largest [usize]. *)
  Variable limit : nat.

  (** [usize] addition and multiplication: an overflow panics (with overflow checks,
      i.e. in a debug build). *)
  Definition usize (n : nat) : outcome unit nat := if Nat.leb n limit then Ok n else Panic.
  Definition usize_add (a b : nat) : outcome unit nat := usize (a + b).
  Definition usize_mul (a b : nat) : outcome unit nat := usize (a * b).

  (** occurs.rs 34-43 [Add], 45-52 [AddAssign]. *)
  Definition max_add (a b : max_occurs) : outcome unit max_occurs :=
    match a, b with
    | Bounded x, Bounded y => match usize_add x y with Ok n => Ok (Bounded n) | Err e => Err e | Panic => Panic end
    | _, _ => Ok Unbounded
    end.

  (** occurs.rs 54-63 [Mul], 65-72 [MulAssign]. *)
  Definition max_mul (a b : max_occurs) : outcome unit max_occurs :=
    match a, b with
    | Bounded x, Bounded y => match usize_mul x y with Ok n => Ok (Bounded n) | Err e => Err e | Panic => Panic end
    | _, _ => Ok Unbounded
    end.

  (** The decimal digits of [usize::from_str]: an optional [+], at least one digit,
      no overflow. *)
  Definition usize_parse (s : string) : option nat :=
    let digits := match s with String "+" s' => s' | _ => s end in
    match NilZero.uint_of_string digits with
    | Some u => let n := N.of_uint u in
                if N.leb n (N.of_nat limit) then Some (N.to_nat n) else None
    | None => None
    end.

  (** occurs.rs 97-107 [FromStr], 123-138 [Deserialize]. *)
  Definition max_parse (s : string) : option max_occurs :=
    if String.eqb s "unbounded" then Some Unbounded
    else match usize_parse s with Some n => Some (Bounded n) | None => None end.
End Machine.

(** occurs.rs 110-120 [Serialize]. *)
Definition max_print (m : max_occurs) : string :=
  match m with
  | Unbounded => "unbounded"
  | Bounded n => NilZero.string_of_uint (N.to_uint (N.of_nat n))
  end.
