(** White space normalisation and decimal literals as XML Schema defines them. *)
From Coq Require Export ZArith.
From Verif Require Export Base.

(** ** White space.  Strings are sequences of Unicode scalar values. *)

(** XML white space: tab, line feed, carriage return, blank. *)
Definition xml_ws (c : N) : bool := ((c =? 9) || (c =? 10) || (c =? 13) || (c =? 32))%N.

Section Words.
  Variable ws : N -> bool.

  (** The maximal runs of characters that are not white space, in order. *)
  Inductive words_of : list (list N) -> list N -> Prop :=
  | wo_blank s : forallb ws s = true -> words_of [] s
  | wo_word a w s l :
      forallb ws a = true -> w <> [] -> forallb (fun c => negb (ws c)) w = true ->
      match s with [] => True | c :: _ => ws c = true end ->
      words_of l s -> words_of (w :: l) (a ++ w ++ s).
End Words.

(** Words separated by single blanks. *)
Fixpoint join_blank (l : list (list N)) : list N :=
  match l with
  | [] => []
  | [w] => w
  | w :: l' => w ++ 32%N :: join_blank l'
  end.

(** ** Decimals *)

Definition digit_value (c : N) : Z := (Z.of_N c - 48)%Z.
Definition digits_value (s : list N) : Z := fold_left (fun v c => 10 * v + digit_value c)%Z s 0%Z.
Definition digits (s : list N) : Prop := Forall (fun c => (48 <= c <= 57)%N) s.

(** XML Schema 3.2.3: [(\+|-)?([0-9]+(\.[0-9]* )?|\.[0-9]+)] (without the blank).
    The parts of a literal. *)
Inductive sign := Plus | Minus | NoSign.
Definition sign_text (g : sign) : list N :=
  match g with Plus => [43%N] | Minus => [45%N] | NoSign => [] end.
Definition decimal_literal (s : list N) (g : sign) (ip fp : list N) (dot : bool) : Prop :=
  s = sign_text g ++ ip ++ (if dot then [46%N] else []) ++ fp /\ digits ip /\ digits fp /\
  (dot = false -> fp = []) /\ (ip <> [] \/ fp <> []).

(** It denotes [i * 10^-n]. *)
Definition denotes_decimal (g : sign) (ip fp : list N) (i : Z) (n : nat) : Prop :=
  i = ((match g with Minus => -1 | _ => 1 end) * digits_value (ip ++ fp))%Z /\ n = length fp.

Definition pow10 (n : nat) : Z := (10 ^ Z.of_nat n)%Z.

(** XML Schema 4.3.12: the value is [j * 10^-f] for some integer [j]. *)
Definition fraction_ok (f : nat) (i : Z) (n : nat) : Prop :=
  exists j, (i * pow10 f = j * pow10 n)%Z.

(** XML Schema 4.3.11: the value is [j * 10^-m] with [|j| < 10^t] and [m <= t]. *)
Definition total_ok (t : nat) (i : Z) (n : nat) : Prop :=
  exists j m, (i * pow10 m = j * pow10 n)%Z /\ (Z.abs j < pow10 t)%Z /\ m <= t.
