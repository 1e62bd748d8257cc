(** Properties C24 and C25: white space and digit facets. *)
From Verif Require Import FacetModel FacetSpec FacetProofs.

(** C24.  [replace]: same length, exactly tab, line feed and carriage return become
    a blank. *)
Theorem C24_replace : forall s,
  length (whitespace_replace s) = length s /\
  (forall i c, nth_error s i = Some c ->
     nth_error (whitespace_replace s) i = Some (if xml_ws c then 32%N else c)) /\
  whitespace_replace (whitespace_replace s) = whitespace_replace s.
Proof.
  intros s. split; [apply replace_length|]. split; [|apply replace_idem].
  intros i c H. unfold whitespace_replace. rewrite nth_error_map, H. cbn. f_equal. unfold xml_ws.
  destruct (N.eqb_spec c 9) as [->|]; [reflexivity|]. destruct (N.eqb_spec c 10) as [->|]; [reflexivity|].
  destruct (N.eqb_spec c 13) as [->|]; [reflexivity|]. destruct (N.eqb_spec c 32) as [->|]; reflexivity.
Qed.
Print Assumptions C24_replace.

(** [collapse]: the words of the string, in order, separated by single blanks; a
    second application changes nothing.  Words are separated by Unicode white
    space here. *)
Theorem C24_collapse : forall s,
  (exists l, words_of unicode_ws l s) /\
  (forall l, words_of unicode_ws l s -> whitespace_collapse s = join_blank l) /\
  whitespace_collapse (whitespace_collapse s) = whitespace_collapse s.
Proof.
  intros s. split; [apply words_total|]. split; [intros l; apply collapse_words|apply collapse_idem].
Qed.
Print Assumptions C24_collapse.

(** XML Schema only knows tab, line feed, carriage return and blank.  For strings
    whose only white space is of that kind the result is the one XML Schema
    defines.  Missing: other strings, see [C24_collapse_refuted]. *)
Theorem C24_collapse_partial : forall s l,
  (forall c, In c s -> unicode_ws c = true -> xml_ws c = true) ->
  words_of xml_ws l s -> whitespace_collapse s = join_blank l.
Proof.
  intros s l H HW. apply collapse_words. refine (words_ext xml_ws unicode_ws l s _ HW).
  intros c Hc. specialize (H c Hc). destruct (unicode_ws c) eqn:E; [apply H; reflexivity|].
  unfold xml_ws. destruct (N.eqb_spec c 9) as [->|]; [discriminate|]. destruct (N.eqb_spec c 10) as [->|]; [discriminate|].
  destruct (N.eqb_spec c 13) as [->|]; [discriminate|]. destruct (N.eqb_spec c 32) as [->|]; [discriminate|reflexivity].
Qed.
Print Assumptions C24_collapse_partial.

(** Refuted for all strings: a no-break space (U+00A0) is not XML white space but
    is replaced, and dropped at the ends. *)
Theorem C24_collapse_refuted : exists s l,
  words_of xml_ws l s /\ whitespace_collapse s <> join_blank l /\ ~ In 32%N s /\ In 32%N (whitespace_collapse s).
Proof.
  exists [97; 160; 98]%N, [[97; 160; 98]%N]. split; [|split; [|split]].
  - apply (wo_word xml_ws [] [97; 160; 98]%N [] []); try reflexivity; [discriminate|apply wo_blank; reflexivity].
  - vm_compute. discriminate.
  - intros [H|[H|[H|[]]]]; discriminate.
  - vm_compute. auto.
Qed.
Print Assumptions C24_collapse_refuted.

Example ex_collapse : whitespace_collapse [32; 9; 97; 10; 32; 98; 99; 13]%N = [97; 32; 98; 99]%N /\
  words_of xml_ws [[97]; [98; 99]]%N [32; 9; 97; 10; 32; 98; 99; 13]%N.
Proof.
  split; [reflexivity|].
  apply (wo_word xml_ws [32; 9]%N [97]%N [10; 32; 98; 99; 13]%N); try reflexivity; [discriminate|].
  apply (wo_word xml_ws [10; 32]%N [98; 99]%N [13]%N); try reflexivity; [discriminate|].
  apply wo_blank. reflexivity.
Qed.

(** C25.  An accepted literal is a decimal whose value satisfies the facet. *)
Theorem C25_total_sound_partial : forall s t, total_digits s t = Ok tt ->
  exists g ip fp dot i n, decimal_literal s g ip fp dot /\ denotes_decimal g ip fp i n /\ total_ok t i n.
Proof. exact total_sound. Qed.
Print Assumptions C25_total_sound_partial.

Theorem C25_fraction_sound_partial : forall s f, fraction_digits s f = Ok tt ->
  exists g ip fp dot i n, decimal_literal s g ip fp dot /\ denotes_decimal g ip fp i n /\ fraction_ok f i n.
Proof. exact fraction_sound. Qed.
Print Assumptions C25_fraction_sound_partial.

(** A literal without plus sign and redundant zeros whose value satisfies the facet
    is accepted.  Missing: other literals, see [C25_refuted]. *)
Theorem C25_total_complete_partial : forall s g ip fp dot i n t,
  decimal_literal s g ip fp dot -> denotes_decimal g ip fp i n ->
  g <> Plus -> (exists c r, ip = c :: r /\ c <> 48%N) -> (forall r c, fp = r ++ [c] -> c <> 48%N) ->
  total_ok t i n -> total_digits s t = Ok tt.
Proof. exact total_complete. Qed.
Print Assumptions C25_total_complete_partial.

Theorem C25_fraction_complete_partial : forall s g ip fp dot i n f,
  decimal_literal s g ip fp dot -> denotes_decimal g ip fp i n ->
  g <> Plus -> ip <> [] -> (forall r c, fp = r ++ [c] -> c <> 48%N) ->
  fraction_ok f i n -> fraction_digits s f = Ok tt.
Proof. exact fraction_complete. Qed.
Print Assumptions C25_fraction_complete_partial.

(** Refuted: valid literals that are rejected.  [+1] and [.5] are "not decimals",
    leading zeros count as digits of [007] and [0.05], trailing zeros of [1.50]. *)
Theorem C25_refuted :
  (exists s g ip fp dot i n t, decimal_literal s g ip fp dot /\ denotes_decimal g ip fp i n /\ total_ok t i n /\
     total_digits s t = Err InvalidDecimalValue) /\
  (exists s g ip fp dot i n t, decimal_literal s g ip fp dot /\ denotes_decimal g ip fp i n /\ total_ok t i n /\
     total_digits s t = Err (TotalDigits t)) /\
  (exists s g ip fp dot i n f, decimal_literal s g ip fp dot /\ denotes_decimal g ip fp i n /\ fraction_ok f i n /\
     fraction_digits s f = Err InvalidDecimalValue) /\
  (exists s g ip fp dot i n f, decimal_literal s g ip fp dot /\ denotes_decimal g ip fp i n /\ fraction_ok f i n /\
     fraction_digits s f = Err (FractionDigits f)).
Proof.
  assert (D : forall l, forallb is_digit l = true -> digits l).
  { intros l H. apply Forall_forall. intros c Hc. apply is_digit_spec. rewrite forallb_forall in H. apply H, Hc. }
  split; [|split; [|split]].
  - exists [43; 49]%N, Plus, [49]%N, [], false, 1%Z, 0, 1. split; [|split; [|split]].
    + split; [reflexivity|]. repeat split; try (apply D; reflexivity). left. discriminate.
    + split; reflexivity.
    + exists 1%Z, 0. repeat split. lia.
    + reflexivity.
  - exists [48; 46; 48; 53]%N, NoSign, [48]%N, [48; 53]%N, true, 5%Z, 2, 2. split; [|split; [|split]].
    + split; [reflexivity|]. repeat split; try (apply D; reflexivity); [discriminate|]. left. discriminate.
    + split; reflexivity.
    + exists 5%Z, 2. repeat split. lia.
    + reflexivity.
  - exists [46; 53]%N, NoSign, [], [53]%N, true, 5%Z, 1, 1. split; [|split; [|split]].
    + split; [reflexivity|]. repeat split; try (apply D; reflexivity); [discriminate|]. right. discriminate.
    + split; reflexivity.
    + exists 5%Z. reflexivity.
    + reflexivity.
  - exists [49; 46; 53; 48]%N, NoSign, [49]%N, [53; 48]%N, true, 150%Z, 2, 1. split; [|split; [|split]].
    + split; [reflexivity|]. repeat split; try (apply D; reflexivity); [discriminate|]. left. discriminate.
    + split; reflexivity.
    + exists 15%Z. reflexivity.
    + reflexivity.
Qed.
Print Assumptions C25_refuted.

(** [-12.75] *)
Example ex_digits :
  total_digits [45; 49; 50; 46; 55; 53]%N 4 = Ok tt /\ total_digits [45; 49; 50; 46; 55; 53]%N 3 = Err (TotalDigits 3) /\
  fraction_digits [45; 49; 50; 46; 55; 53]%N 2 = Ok tt /\ fraction_digits [45; 49; 50; 46; 55; 53]%N 1 = Err (FractionDigits 1).
Proof. repeat split. Qed.
Example ex_digits_literal :
  decimal_literal [45; 49; 50; 46; 55; 53]%N Minus [49; 50]%N [55; 53]%N true /\
  denotes_decimal Minus [49; 50]%N [55; 53]%N (-1275) 2 /\ total_ok 4 (-1275) 2.
Proof.
  split; [|split].
  - split; [reflexivity|]. repeat split; try discriminate.
    + repeat constructor; discriminate.
    + repeat constructor; discriminate.
    + left. discriminate.
  - split; reflexivity.
  - exists (-1275)%Z, 2. repeat split. lia.
Qed.
