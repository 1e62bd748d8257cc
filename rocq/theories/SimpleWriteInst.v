(** A small instance of the built-in types with decimals, for the counterexamples and
    examples about writing simple types. *)
From Verif Require Import SimpleModel SimpleInst SimpleWriteModel SimpleWriteSpec.

(** Texts, and decimals by their digits. *)
Inductive wval := WText (s : list N) | WDec (neg : bool) (ip fp : list N).

Fixpoint strip_start (s : list N) : list N :=
  match s with
  | [] => []
  | c :: s' => if (c =? 48)%N then strip_start s' else s
  end.
Definition integer_part (s : list N) : list N := match strip_start s with [] => [48%N] | r => r end.
Definition fraction_part (s : list N) : list N := rev (strip_start (rev s)).
Definition negative (s : list N) : bool := match s with c :: _ => (c =? 45)%N | [] => false end.

(** 0: strings, 1: integers, 2: decimals. *)
Definition wparse (b : nat) (s : list N) : option wval :=
  match b with
  | 0 => Some (WText s)
  | 1 => match rx_decimal s with Some (ip, None) => Some (WDec (negative s) (integer_part ip) []) | _ => None end
  | _ =>
      match rx_decimal s with
      | Some (ip, fp) => Some (WDec (negative s) (integer_part ip) (fraction_part (match fp with Some fp => fp | None => [] end)))
      | None => None
      end
  end.

Definition wsign (neg : bool) : list N := if neg then [45%N] else [].
Definition wprint (a : wval) : list N :=
  match a with
  | WText s => s
  | WDec neg ip fp => wsign neg ++ ip ++ match fp with [] => [] | _ => 46%N :: fp end
  end.
(** Simplification: digits are cut off, not rounded. *)
Definition wfixed (n : nat) (a : wval) : list N :=
  match a with
  | WText s => firstn n s
  | WDec neg ip fp => wsign neg ++ ip ++ match n with 0 => [] | _ => 46%N :: firstn n (fp ++ repeat 48%N n) end
  end.

(** No bounds and no lengths are used. *)
Definition wlt (x y : wval) : bool := false.
Definition wsize (x : wval) : nat := match x with WText s => length s | _ => 0 end.

Notation wread := (read wparse wlt wlt wsize imatches).
Notation wwrite := (write wprint wfixed).
Notation wbuilds := (builds wparse wlt wlt wsize).
Notation wwrites_back := (writes_back wparse wlt wlt wsize imatches wprint wfixed).
Notation wreads_back := (reads_back wparse wlt wlt wsize imatches wprint wfixed).
