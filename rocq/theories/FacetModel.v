(** White space and digit facets: [whitespace_replace], [whitespace_collapse],
    [total_digits], [fraction_digits] (xsd-parser-types/src/quick_xml/mod.rs).
    Strings are sequences of Unicode scalar values here, because the code works on
    characters. *)
From Coq Require Export ZArith.
From Verif Require Export Base.

Notation chr := N (only parsing).
Notation str := (list N) (only parsing).

(** The Unicode property White_Space: [\s] of the regex crate and
    [char::is_whitespace]. *)
Definition unicode_ws (c : chr) : bool :=
  ((9 <=? c) && (c <=? 13) || (c =? 32) || (c =? 133) || (c =? 160) || (c =? 5760) ||
   (8192 <=? c) && (c <=? 8202) || (c =? 8232) || (c =? 8233) || (c =? 8239) || (c =? 8287) || (c =? 12288))%N.

(** mod.rs 51-53 [whitespace_replace]. *)
Definition whitespace_replace (s : str) : str :=
  map (fun c => if ((c =? 9) || (c =? 10) || (c =? 13))%N then 32%N else c) s.

(** [Regex::replace_all] of [\s+] by a blank: one blank for each maximal run. *)
Fixpoint replace_runs (in_run : bool) (s : str) : str :=
  match s with
  | [] => []
  | c :: s' =>
      if unicode_ws c then (if in_run then [] else [32%N]) ++ replace_runs true s'
      else c :: replace_runs false s'
  end.

(** [str::trim] *)
Fixpoint str_trim_start (s : str) : str :=
  match s with
  | [] => []
  | c :: s' => if unicode_ws c then str_trim_start s' else s
  end.
Definition str_trim (s : str) : str := rev (str_trim_start (rev (str_trim_start s))).

(** mod.rs 56-58 [whitespace_collapse]. *)
Definition whitespace_collapse (s : str) : str := str_trim (replace_runs false s).

(** ** Digits *)

Definition is_digit (c : chr) : bool := ((48 <=? c) && (c <=? 57))%N.

Fixpoint take_digits (s : str) : str * str :=
  match s with
  | c :: s' => if is_digit c then let (d, r) := take_digits s' in (c :: d, r) else ([], s)
  | [] => ([], [])
  end.

(** mod.rs 106-107 [RX_DECIMAL], [^-?([0-9]+)(?:\.([0-9]* ))?$] (without the blank):
    the captures of group 1 and group 2. *)
Definition rx_decimal (s : str) : option (str * option str) :=
  let s1 := match s with c :: s' => if (c =? 45)%N then s' else s | [] => s end in
  let (ip, r) := take_digits s1 in
  match ip with
  | [] => None
  | _ =>
      match r with
      | [] => Some (ip, None)
      | c :: r' =>
          if (c =? 46)%N then
            let (fp, r2) := take_digits r' in
            match r2 with [] => Some (ip, Some fp) | _ => None end
          else None
      end
  end.

(** error.rs: [ValidateError] *)
Inductive validate_error := InvalidDecimalValue | TotalDigits (n : nat) | FractionDigits (n : nat).

(** mod.rs 67-83 [total_digits]. *)
Definition total_digits (s : str) (expected : nat) : outcome validate_error unit :=
  match rx_decimal s with
  | None => Err InvalidDecimalValue
  | Some (a, b) =>
      let actual := match b with None => length a | Some b => length a + length b end in
      if Nat.leb actual expected then Ok tt else Err (TotalDigits expected)
  end.

(** mod.rs 92-104 [fraction_digits]. *)
Definition fraction_digits (s : str) (expected : nat) : outcome validate_error unit :=
  match rx_decimal s with
  | None => Err InvalidDecimalValue
  | Some (_, b) =>
      let actual := match b with None => 0 | Some b => length b end in
      if Nat.leb actual expected then Ok tt else Err (FractionDigits expected)
  end.
