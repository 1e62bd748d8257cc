(** A small instance of the built-in types, for the counterexamples and examples about
    simple types. *)
From Coq Require Import ZArith Ascii String.
From Verif Require Import SimpleModel SimpleSpec.

Definition txt (s : string) : list N := map N_of_ascii (list_ascii_of_string s).

(** Texts, integers and a number that is not comparable. *)
Inductive ival := IText (s : list N) | INum (z : Z) | INaN.

Fixpoint idigits (acc : Z) (s : list N) : option Z :=
  match s with
  | [] => Some acc
  | c :: s' => if ((48 <=? c) && (c <=? 57))%N then idigits (10 * acc + Z.of_N (c - 48)) s' else None
  end.
Definition inum (s : list N) : option Z :=
  match s with
  | 45%N :: (_ :: _) as s' => option_map Z.opp (idigits 0 (tl s'))
  | 43%N :: (_ :: _) as s' => idigits 0 (tl s')
  | [] => None
  | _ => idigits 0 s
  end.

(** 0: strings, 1: integers, 2: integers and [NaN]. *)
Definition iparse (b : nat) (s : list N) : option ival :=
  match b with
  | 0 => Some (IText s)
  | 1 => option_map INum (inum s)
  | _ => if str_eq_dec s (txt "NaN") then Some INaN else option_map INum (inum s)
  end.
Definition iwhite (b : nat) : white := match b with 0 => WPreserve | _ => WCollapse end.

Definition ilt (x y : ival) : bool := match x, y with INum a, INum b => (a <? b)%Z | _, _ => false end.
Definition ile (x y : ival) : bool := match x, y with INum a, INum b => (a <=? b)%Z | _, _ => false end.
Definition ichars (x : ival) : nat := match x with IText s => length s | _ => 0 end.
Definition ibytes (x : ival) : nat :=
  match x with
  | IText s => fold_right (fun c n => (if (c <? 128)%N then 1 else if (c <? 2048)%N then 2 else if (c <? 65536)%N then 3 else 4) + n) 0 s
  | _ => 0
  end.

(** Regular expressions of single characters and dots. *)
Fixpoint imatches (p s : list N) : bool :=
  match p, s with
  | [], [] => true
  | a :: p', c :: s' => ((a =? 46) || (a =? c))%N && imatches p' s'
  | _, _ => false
  end.

Notation idenotes := (denotes iparse iwhite ilt ile ichars imatches).
Notation istands := (stands iparse iwhite ilt ile ichars imatches).
Notation iplain := (plain iparse iwhite ilt ile ichars imatches).
Notation iread := (read iparse ilt ile ibytes imatches).
Notation igenerate := (generate iparse).
