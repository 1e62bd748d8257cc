(** A small instance of the built-in types, for the counterexamples and examples about
    default values. *)
From Coq Require Import ZArith String.
From Verif Require Import SimpleModel SimpleSpec SimpleInst DefaultModel DefaultSpec.

Inductive dval := DText (s : list N) | DNum (z : Z) | DInf | DBool (b : bool).

(** 0: strings, 1: integers, 2: floating point numbers, 3: truth values, 4: big integers. *)
Definition dclass (b : nat) : builtin_class :=
  match b with 0 => CString | 1 => CInteger | 2 => CFloat | 3 => CBool | _ => CFromStr end.
Definition dparse (b : nat) (s : list N) : option dval :=
  match b with
  | 0 => Some (DText s)
  | 2 => if str_eq_dec s (txt "INF") then Some DInf else option_map DNum (inum s)
  | 3 => option_map DBool (read_bool s)
  | _ => option_map DNum (inum s)
  end.
Definition dwhite (b : nat) : white := match b with 0 => WPreserve | _ => WCollapse end.
Definition dfinite (x : dval) : bool := match x with DInf => false | _ => true end.
Definition dlt (x y : dval) : bool := match x, y with DNum a, DNum b => (a <? b)%Z | _, _ => false end.
Definition dle (x y : dval) : bool := match x, y with DNum a, DNum b => (a <=? b)%Z | _, _ => false end.
Definition dsize (x : dval) : nat := match x with DText s => length s | _ => 0 end.

Notation dmake := (make_value dclass dparse dfinite DBool).
Notation drun := (run dparse).
Notation dread := (read dparse dlt dle dsize imatches).
Notation dgenerate := (generate dparse).
Notation ddenotes := (denotes dparse dwhite dlt dle dsize imatches).
Notation dplain := (plain dparse dwhite dlt dle dsize imatches).
Notation dstands := (stands dparse dwhite dlt dle dsize imatches).
