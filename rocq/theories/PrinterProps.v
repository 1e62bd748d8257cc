(** C105: printing types for debugging ends, for types inside of themselves too. *)
From Coq Require Import List Arith Bool Relations.
From Verif Require Import PrinterModel PrinterSpec PrinterProofs.
Import ListNotations.

(** Printing one type or all of them ends for every set of types: with no more calls inside
    of each other than there are types, and one; more room changes nothing. *)
Theorem C105_ends : forall ts,
  (forall i, exists o, forall fuel, length ts < fuel -> print_type fuel ts i = Some o) /\
  (exists o, forall fuel, length ts < fuel -> print_all fuel ts = Some o).
Proof. exact ends. Qed.
Print Assumptions C105_ends.

(** A loop is reported for a type that is below the printed one and inside of itself only;
    and if there is such a type then one is reported. *)
Theorem C105_loops : forall ts fuel i o, print_type fuel ts i = Some o ->
  (forall j, In (OLoop j) o -> below ts i j /\ recursive ts j) /\
  ((exists j, below ts i j /\ recursive ts j) -> exists j, In (OLoop j) o).
Proof. exact loops. Qed.
Print Assumptions C105_loops.

(** Exactly the types that are below the printed one are shown, and exactly those of them
    that do not exist are reported as missing. *)
Theorem C105_everything : forall ts fuel i o, get i ts <> None -> print_type fuel ts i = Some o ->
  (forall j, In (OTitle j) o <-> below ts i j /\ get j ts <> None) /\
  (forall j, In (OMissing j) o <-> below ts i j /\ get j ts = None).
Proof. exact everything. Qed.
Print Assumptions C105_everything.

(** The types do not influence each other: printing all of them is printing one after the
    other, each with a printer of its own. *)
Theorem C105_one_by_one : forall ts fuel o, NoDup (map fst ts) -> print_all fuel ts = Some o ->
  exists os, Forall2 (fun i p => print_type fuel ts i = Some p) (map fst ts) os /\ o = concat os.
Proof. exact one_by_one. Qed.
Print Assumptions C105_one_by_one.

(** Refuted: that the output grows with the types. A type is shown as often as there are
    ways to it: [n] types with two groups each give 2^n titles. *)
Theorem C105_size_refuted : forall n, length (twice n) = S n /\
  exists o, print_type (S (length (twice n))) (twice n) 0 = Some o /\ 2 ^ n <= titles o.
Proof. intros n. split; [apply twice_length|apply exponential]. Qed.
Print Assumptions C105_size_refuted.

(** A complex type whose group has a field, itself and a missing type. *)
Definition sample : types :=
  [(1, TComplex [Field 1 10] (Some 2)); (2, TGroup [Field 1 20] [EOther [Field 2 21]; EGroup [] 2; EGroup [] 9]); (3, TSimple [Field 1 30])].
Example C105_case : print_type 4 sample 1 =
  Some [OTitle 1; OField 1 10; OLabel 1; OTitle 2; OField 2 20; OField 3 21; OLabel 3; OLoop 2; OLabel 3; OMissing 9].
Proof. reflexivity. Qed.
Example C105_case_hypotheses : NoDup (map fst sample) /\ get 1 sample <> None /\ below sample 1 2 /\ recursive sample 2 /\ below sample 1 9 /\ get 9 sample = None.
Proof.
  assert (E : inside sample 1 2) by reflexivity.
  assert (R : inside sample 2 2) by (exists []; right; left; reflexivity).
  assert (N : inside sample 2 9) by (exists []; right; right; left; reflexivity).
  split; [|split; [|split; [|split; [|split]]]].
  - change (NoDup [1; 2; 3]). constructor; [intros [H|[H|[]]]; discriminate|].
    constructor; [intros [H|[]]; discriminate|]. constructor; [intros []|constructor].
  - discriminate.
  - apply rt_step. exact E.
  - apply t_step. exact R.
  - eapply rt_trans; apply rt_step; [exact E|exact N].
  - reflexivity.
Qed.
Example C105_case_all : exists o, print_all 4 sample = Some o /\ In (OTitle 3) o /\ titles o = 4.
Proof.
  exists ([OTitle 1; OField 1 10; OLabel 1; OTitle 2; OField 2 20; OField 3 21; OLabel 3; OLoop 2; OLabel 3; OMissing 9] ++
    [OTitle 2; OField 1 20; OField 2 21; OLabel 2; OLoop 2; OLabel 2; OMissing 9] ++ [OTitle 3; OField 1 30]).
  split; [reflexivity|]. split; [|reflexivity]. apply in_or_app. right. apply in_or_app. right. left. reflexivity.
Qed.
