(** C36: occurrence arithmetic. *)
From Verif Require Import OccursModel OccursSpec OccursProofs.
Local Open Scope string_scope.

(** Adding maxima: the sum allows exactly the totals of what the two allow. *)
Theorem C36_add : forall limit a b c, max_add limit a b = Ok c ->
  forall n, allows c n <-> exists i j, n = i + j /\ allows a i /\ allows b j.
Proof. exact add_meaning. Qed.
Print Assumptions C36_add.

(** Adding fails only by overflow of two bounded maxima. *)
Theorem C36_add_overflow : forall limit a b,
  (max_add limit a b = Panic <-> exists x y, a = Bounded x /\ b = Bounded y /\ limit < x + y) /\
  forall e, max_add limit a b <> Err e.
Proof. exact add_panics. Qed.
Print Assumptions C36_add_overflow.

Theorem C36_commutative : forall limit a b,
  max_add limit a b = max_add limit b a /\ max_mul limit a b = max_mul limit b a.
Proof. intros limit a b. split; [apply add_comm|apply mul_comm]. Qed.
Print Assumptions C36_commutative.

(** Both orders of adding or multiplying three maxima give the same value, and
    multiplication distributes over addition, if no step overflows.
    Missing: with an overflow one order may fail and the other succeed. *)
Theorem C36_associative_partial : forall limit a b c,
  (forall ab l bc r, max_add limit a b = Ok ab -> max_add limit ab c = Ok l ->
     max_add limit b c = Ok bc -> max_add limit a bc = Ok r -> l = r) /\
  (forall ab l bc r, max_mul limit a b = Ok ab -> max_mul limit ab c = Ok l ->
     max_mul limit b c = Ok bc -> max_mul limit a bc = Ok r -> l = r) /\
  (forall bc l ab ac r, max_add limit b c = Ok bc -> max_mul limit a bc = Ok l ->
     max_mul limit a b = Ok ab -> max_mul limit a c = Ok ac -> max_add limit ab ac = Ok r -> l = r).
Proof.
  intros limit a b c. split; [|split].
  - intros ab l bc r H1 H2 H3 H4. exact (add_assoc _ _ _ _ _ _ _ _ H1 H2 H3 H4).
  - intros ab l bc r H1 H2 H3 H4. exact (mul_assoc _ _ _ _ _ _ _ _ H1 H2 H3 H4).
  - intros bc l ab ac r H1 H2 H3 H4 H5. exact (mul_distr _ _ _ _ _ _ _ _ _ H1 H2 H3 H4 H5).
Qed.
Print Assumptions C36_associative_partial.
Example C36_associative_case :
  max_mul 100 (Bounded 2) (Bounded 3) = Ok (Bounded 6) /\ max_add 100 (Bounded 6) Unbounded = Ok Unbounded.
Proof. split; reflexivity. Qed.

(** With the largest [usize] reached, the order of the additions decides between a
    panic and a value. *)
Theorem C36_associative_refuted : forall limit,
  exists a b c ab, max_add limit b c = Panic /\ max_add limit a b = Ok ab /\ max_add limit ab c = Ok Unbounded.
Proof.
  intros limit. exists Unbounded, (Bounded limit), (Bounded 1), Unbounded. split; [|split; reflexivity].
  apply add_panics. exists limit, 1. repeat split. lia.
Qed.
Print Assumptions C36_associative_refuted.

(** The order on maxima is inclusion of what they allow; unbounded is the largest,
    and [max] is the least upper bound. *)
Theorem C36_order : forall a b,
  (max_leb a b = true <-> at_most a b) /\ at_most a Unbounded /\
  at_most a (max_max a b) /\ at_most b (max_max a b) /\
  forall c, at_most a c -> at_most b c -> at_most (max_max a b) c.
Proof. intros a b. split; [apply at_most_leb|]. split; [intros n _; exact I|apply max_join]. Qed.
Print Assumptions C36_order.

Theorem C36_monotone : forall limit a a' b b' c c', at_most a a' -> at_most b b' ->
  (max_add limit a b = Ok c -> max_add limit a' b' = Ok c' -> at_most c c') /\
  (max_mul limit a b = Ok c -> max_mul limit a' b' = Ok c' -> at_most c c').
Proof.
  intros limit a a' b b' c c' A B. split; intros H H'; [exact (add_mono _ _ _ _ _ _ _ A B H H')|exact (mul_mono _ _ _ _ _ _ _ A B H H')].
Qed.
Print Assumptions C36_monotone.

(** The product allows every total of at most [a] groups of at most [b]; nothing
    else unless one of the factors is zero. *)
Theorem C36_mul_partial : forall limit a b c, max_mul limit a b = Ok c ->
  (forall n, grouped a b n -> allows c n) /\
  (a <> Bounded 0 -> b <> Bounded 0 -> forall n, allows c n <-> grouped a b n).
Proof. intros limit a b c H. split; [apply (mul_sound _ _ _ _ H)|apply (mul_meaning _ _ _ _ H)]. Qed.
Print Assumptions C36_mul_partial.
Example C36_mul_case : max_mul 100 (Bounded 2) (Bounded 3) = Ok (Bounded 6) /\ grouped (Bounded 2) (Bounded 3) 5.
Proof. split; [reflexivity|]. exists [3; 2]. cbn. repeat split; auto; repeat constructor. Qed.

(** Unboundedly many groups of nothing count as unboundedly many. *)
Theorem C36_mul_zero_refuted : forall limit,
  max_mul limit Unbounded (Bounded 0) = Ok Unbounded /\
  allows Unbounded 1 /\ ~ grouped Unbounded (Bounded 0) 1.
Proof.
  intros limit. split; [reflexivity|]. split; [exact I|]. intros (l & _ & F & E).
  apply sum_bounded in F. rewrite Nat.mul_0_r in F. lia.
Qed.
Print Assumptions C36_mul_zero_refuted.

(** Reading the written form of a maximum gives it back. *)
Theorem C36_text : forall limit m, (forall n, m = Bounded n -> n <= limit) ->
  max_parse limit (max_print m) = Some m.
Proof. exact parse_print. Qed.
Print Assumptions C36_text.
Example C36_text_case : max_print (Bounded 42) = "42" /\ max_parse 100 "unbounded" = Some Unbounded /\ max_parse 100 "-1" = None.
Proof. repeat split. Qed.

(** Exactly the texts "unbounded" and decimal numbers up to the limit are maxima. *)
Theorem C36_text_meaning : forall limit s m, max_parse limit s = Some m <->
  (s = "unbounded" /\ m = Unbounded) \/ (exists n, m = Bounded n /\ n <= limit /\ is_number s n).
Proof. exact parse_meaning. Qed.
Print Assumptions C36_text_meaning.
Example C36_text_meaning_case :
  max_parse 100 "100" = Some (Bounded 100) /\ max_parse 100 "101" = None /\ max_parse 100 "+07" = Some (Bounded 7) /\
  max_parse 100 "" = None /\ max_parse 100 "+" = None.
Proof. repeat split. Qed.
