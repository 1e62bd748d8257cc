(** What occurrence bounds mean. *)
From Verif Require Import OccursModel.

(** The number of occurrences a maximum allows. *)
Definition allows (m : max_occurs) (n : nat) : Prop :=
  match m with
  | Unbounded => True
  | Bounded k => n <= k
  end.

(** The first maximum is at most the second. *)
Definition at_most (a b : max_occurs) : Prop := forall n, allows a n -> allows b n.

(** [n] occurrences arranged in groups: the outer bound limits the number of
    groups, the inner one the size of each. *)
Definition grouped (outer inner : max_occurs) (n : nat) : Prop :=
  exists groups, allows outer (length groups) /\ Forall (allows inner) groups /\ n = list_sum groups.

(** A text of decimal digits read from left to right after the number [n]. *)
Inductive digits_after : nat -> string -> nat -> Prop :=
| digits_end n : digits_after n EmptyString n
| digits_next n k s m : k < 10 -> digits_after (10 * n + k) s m ->
    digits_after n (String (ascii_of_nat (48 + k)) s) m.
(** The text is a number: one or more digits, maybe with a plus in front. *)
Definition is_number (s : string) (n : nat) : Prop :=
  exists t, (s = t \/ s = String "+"%char t) /\ t <> EmptyString /\ digits_after 0 t n.
