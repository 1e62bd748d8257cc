(** C95: the numeric built-in types and [boolean]. *)
From Coq Require Import ZArith.
From Verif Require Import NumberModel NumberSpec NumberProofs.
Local Open Scope string_scope.

(** The types with a sign and a size are read exactly as XML Schema says. *)
Theorem C95_signed big nonzero w name s z : In name ["long"; "int"; "short"; "byte"] ->
  read_type big nonzero w name s = Some (VInt z) <-> denotes_int name s z.
Proof. apply signed_types. Qed.
Print Assumptions C95_signed.

(** So are the types without a sign, except for a zero with a minus. *)
Theorem C95_unsigned_partial big nonzero w name s z :
  In name ["unsignedLong"; "unsignedInt"; "unsignedShort"; "unsignedByte"] ->
  read_type big nonzero w name s = Some (VInt z) <-> denotes_int name s z /\ ~ has_minus s.
Proof. apply unsigned_types. Qed.
Print Assumptions C95_unsigned_partial.

(** Without big integers, the texts of the other integer types are read if the number fits: 32 bits for [integer], the
    size of a pointer for the others; and no minus for those that are not negative. *)
Theorem C95_default_partial nonzero w s z :
  (denotes_int "integer" s z -> (- 2 ^ 31 <= z < 2 ^ 31)%Z -> read_type false nonzero w "integer" s = Some (VInt z)) /\
  (forall name, In name ["negativeInteger"; "nonPositiveInteger"] -> denotes_int name s z -> (- pow2 (w - 1) <= z)%Z ->
     read_type false nonzero w name s = Some (VInt z)) /\
  (forall name, In name ["positiveInteger"; "nonNegativeInteger"] -> denotes_int name s z -> (z < pow2 w)%Z -> ~ has_minus s ->
     read_type false nonzero w name s = Some (VInt z)).
Proof.
  split; [|split].
  - intros [HL _] HR. unfold read_type. replace (typedef false nonzero "integer") with (Some (RInt true 32)) by (destruct nonzero; reflexivity).
    cbn [read_number]. apply as_int_spec, read_int_type. split; [exact HL|]. split; [|discriminate].
    change (int_min true 32) with (- 2 ^ 31)%Z. change (int_max true 32) with (2 ^ 31 - 1)%Z. lia.
  - intros name HN HD HR. assert (HB : exists h, In (name, (None, Some h)) bounds /\ (h = 0 \/ h = -1)%Z /\
      (typedef false nonzero name = Some (RSize true) \/ typedef false nonzero name = Some (RNonZeroSize true) /\ h = (-1)%Z)).
    { destruct HN as [<-|[<-|[]]]; [exists (-1)%Z|exists 0%Z]; (split; [cbn [bounds In]; tauto|]); (split; [auto|]); destruct nonzero; cbn; auto. }
    destruct HB as (h & HB & HH & HT). apply (denotes_bounds _ _ _ _ HB) in HD as [HL HI]. apply in_high in HI.
    pose proof (pow2_pos (w - 1)) as HP.
    assert (HX : int_from_str (int_min true w) (int_max true w) s = Some z).
    { apply read_int_type. split; [exact HL|]. split; [|discriminate]. cbn [int_min int_max]. lia. }
    unfold read_type. destruct HT as [-> | [-> ->]]; cbn [read_number]; rewrite HX; [reflexivity|].
    destruct (Z.eqb_spec z 0); [lia|reflexivity].
  - intros name HN HD HR HM. assert (HB : exists l, In (name, (Some l, None)) bounds /\ (l = 0 \/ l = 1)%Z /\
      (typedef false nonzero name = Some (RSize false) \/ typedef false nonzero name = Some (RNonZeroSize false) /\ l = 1%Z)).
    { destruct HN as [<-|[<-|[]]]; [exists 1%Z|exists 0%Z]; (split; [cbn [bounds In]; tauto|]); (split; [auto|]); destruct nonzero; cbn; auto. }
    destruct HB as (l & HB & HH & HT). apply (denotes_bounds _ _ _ _ HB) in HD as [HL HI]. apply in_low in HI.
    assert (HX : int_from_str (int_min false w) (int_max false w) s = Some z).
    { apply read_int_type. split; [exact HL|]. split; [|auto]. cbn [int_min int_max]. lia. }
    unfold read_type. destruct HT as [-> | [-> ->]]; cbn [read_number]; rewrite HX; [reflexivity|].
    destruct (Z.eqb_spec z 0); [lia|reflexivity].
Qed.
Print Assumptions C95_default_partial.

(** With big integers, they are read whatever the number is. *)
Theorem C95_big_partial w name s z :
  In name ["integer"; "negativeInteger"; "nonPositiveInteger"; "positiveInteger"; "nonNegativeInteger"] ->
  denotes_int name s z -> (In name ["positiveInteger"; "nonNegativeInteger"] -> ~ has_minus s) ->
  read_type true false w name s = Some (VInt z).
Proof.
  intros HN [HL _] HM. unfold read_type.
  assert (HX : forall g, (g = false -> In name ["positiveInteger"; "nonNegativeInteger"]) -> big_from_str g s = Some z).
  { intros g HG. apply big_literal. split; [exact HL|]. intros E. apply HM, HG, E. }
  destruct HN as [<-|[<-|[<-|[<-|[<-|[]]]]]]; cbn -[big_from_str]; rewrite HX; try reflexivity; try discriminate; intros _; cbn; auto.
Qed.
Print Assumptions C95_big_partial.

(** What is read for [integer], for the types without a sign and, with the non-zero types, for
    [positiveInteger] is valid.  (Without big integers.) *)
Theorem C95_only_partial nonzero w name s z :
  In name ["integer"; "nonNegativeInteger"] \/ name = "positiveInteger" /\ nonzero = true ->
  read_type false nonzero w name s = Some (VInt z) -> denotes_int name s z.
Proof.
  intros HN HR. unfold read_type in HR. destruct HN as [[<-|[<-|[]]]|[-> ->]].
  - replace (typedef false nonzero "integer") with (Some (RInt true 32)) in HR by (destruct nonzero; reflexivity).
    cbn [read_number] in HR. apply as_int_spec, read_int_type in HR as (HL & _).
    apply (denotes_bounds _ _ _ (None, None)); [cbn [bounds In]; tauto|]. split; [exact HL|]. split; intros x E; discriminate E.
  - replace (typedef false nonzero "nonNegativeInteger") with (Some (RSize false)) in HR by (destruct nonzero; reflexivity).
    cbn [read_number] in HR. apply as_int_spec, read_int_type in HR as (HL & HB & _).
    apply (denotes_bounds _ _ _ (Some 0%Z, None)); [cbn [bounds In]; tauto|]. split; [exact HL|]. apply in_low. apply HB.
  - change (typedef false true "positiveInteger") with (Some (RNonZeroSize false)) in HR. cbn [read_number] in HR.
    destruct (int_from_str (int_min false w) (int_max false w) s) as [v|] eqn:E; [|discriminate]. destruct (Z.eqb_spec v 0); [discriminate|].
    injection HR as ->. apply read_int_type in E as (HL & HB & _).
    apply (denotes_bounds _ _ _ (Some 1%Z, None)); [cbn [bounds In]; tauto|]. split; [exact HL|]. apply in_low. cbn [int_min] in HB. lia.
Qed.
Print Assumptions C95_only_partial.

(** Numbers of all integer types are written with a valid text, and read back. *)
Theorem C95_written name z :
  (exists b, In (name, b) bounds /\ in_bounds b z) -> denotes_int name (write_int z) z /\
  (forall big nonzero w, In name ["long"; "int"; "short"; "byte"; "unsignedLong"; "unsignedInt"; "unsignedShort"; "unsignedByte"] ->
     read_type big nonzero w name (write_int z) = Some (VInt z)) /\
  (forall w, In name ["integer"; "negativeInteger"; "nonPositiveInteger"; "positiveInteger"; "nonNegativeInteger"] ->
     read_type true false w name (write_int z) = Some (VInt z)).
Proof.
  intros (b & HB & HI). destruct (written_literal z) as [HL HM].
  assert (HD : denotes_int name (write_int z) z) by (split; [exact HL|]; exists b; auto).
  split; [exact HD|]. split.
  - intros big nonzero w HN.
    assert (HX : In name ["long"; "int"; "short"; "byte"] \/ In name ["unsignedLong"; "unsignedInt"; "unsignedShort"; "unsignedByte"]).
    { cbn [In] in HN |- *. tauto. }
    destruct HX as [HX|HX]; [apply signed_types; assumption|]. apply unsigned_types; [assumption|]. split; [exact HD|]. apply HM.
    destruct HX as [<-|[<-|[<-|[<-|[]]]]]; (apply bounds_find in HB; cbn in HB; injection HB as <-; apply in_both in HI; lia).
  - intros w HN. apply C95_big_partial; [exact HN|exact HD|]. intros HX. apply HM.
    destruct HX as [<-|[<-|[]]]; (apply bounds_find in HB; cbn in HB; injection HB as <-; apply in_low in HI; lia).
Qed.
Print Assumptions C95_written.

(** The texts of [boolean], [decimal], [float] and [double] are read. *)
Theorem C95_boolean big nonzero w s b : denotes_bool s b -> read_type big nonzero w "boolean" s = Some (VBool b).
Proof. intros H. destruct big, nonzero, b; destruct H as [->| ->]; reflexivity. Qed.
Print Assumptions C95_boolean.
Theorem C95_boolean_written big nonzero w b : denotes_bool (write_bool b) b /\ read_type big nonzero w "boolean" (write_bool b) = Some (VBool b).
Proof. destruct big, nonzero, b; (split; [left; reflexivity|reflexivity]). Qed.
Print Assumptions C95_boolean_written.
Theorem C95_float_partial big nonzero w s :
  (decimal_text s -> read_type big nonzero w "decimal" s = Some (VFloat s)) /\
  (double_text s -> read_type big nonzero w "float" s = Some (VFloat s) /\ read_type big nonzero w "double" s = Some (VFloat s)).
Proof.
  assert (HX : double_text s -> forall name t, In (name, t) [("decimal", RF64); ("float", RF32); ("double", RF64)] ->
     read_type big nonzero w name s = Some (VFloat s)).
  { intros H name t HN. apply float_read in H. unfold read_type.
    destruct HN as [HN|[HN|[HN|[]]]]; injection HN as <- <-; destruct big, nonzero; cbn -[float_from_str]; rewrite H; reflexivity. }
  split.
  - intros H. apply (HX (or_introl H) "decimal" RF64). left. reflexivity.
  - intros H. split; [apply (HX H "float" RF32)|apply (HX H "double" RF64)]; cbn [In]; auto.
Qed.
Print Assumptions C95_float_partial.

(** ** A case *)

Example C95_case_hypotheses : denotes_int "byte" "-0128" (-128) /\ denotes_int "unsignedInt" "+7" 7 /\ ~ has_minus "+7" /\
  double_text "-1.5E+10" /\ decimal_text ".5" /\ denotes_int "integer" "12345678901234567890123" 12345678901234567890123.
Proof.
  assert (HD : forall n, n <= 9 -> is_digit (ascii_of_nat (48 + n)) (Z.of_nat n)).
  { intros n H. do 10 (destruct n as [|n]; [split; [lia|reflexivity]|]). lia. }
  assert (HI : forall b, in_bounds (None, None) b) by (intros b; split; intros x E; discriminate E).
  split; [|split; [|split; [|split; [|split]]]].
  - split; [apply (Lit_minus "0128" 128), big_zero; [discriminate|reflexivity]|]. exists (Some (-128), Some 127)%Z. split; [cbn [bounds In]; tauto|]. apply in_both. lia.
  - split; [apply (Lit_plus "7" 7), big_zero; [discriminate|reflexivity]|]. exists (Some 0, Some 4294967295)%Z. split; [cbn [bounds In]; tauto|]. apply in_both. lia.
  - intros (r & E). discriminate E.
  - right. left. exists "-1.5", "E", "+10". split; [right; reflexivity|]. split; [reflexivity|]. split.
    + exists "1.5". split; [right; right; reflexivity|]. right. exists "1", "5". split; [reflexivity|].
      split; [intros c [<-|[]]; exists 1%Z; apply (HD 1); lia|]. split; [intros c [<-|[]]; exists 5%Z; apply (HD 5); lia|]. left. discriminate.
    + exists "10". split; [right; left; reflexivity|]. split; [discriminate|]. intros c [<-|[<-|[]]]; [exists 1%Z; apply (HD 1); lia|exists 0%Z; apply (HD 0); lia].
  - exists ".5". split; [left; reflexivity|]. right. exists "", "5". split; [reflexivity|]. split; [intros c []|].
    split; [intros c [<-|[]]; exists 5%Z; apply (HD 5); lia|]. right. discriminate.
  - split; [apply Lit_none, big_zero; [discriminate|reflexivity]|]. exists (None, None). split; [left; reflexivity|apply HI].
Qed.
Example C95_case_read : read_type false false 64 "byte" "-0128" = Some (VInt (-128)) /\ read_type false false 64 "byte" "128" = None /\
  read_type false false 64 "byte" "+" = None /\ read_type false false 64 "byte" "1x" = None /\
  write_int (-120) = "-120" /\ read_type true false 64 "negativeInteger" (write_int (-120)) = Some (VInt (-120)).
Proof. repeat split. Qed.

(** ** Where the code is wrong *)

(** By default, large numbers of the type [integer] are not read. *)
Theorem C95_integer_refuted : exists s z, denotes_int "integer" s z /\ forall nonzero w v, read_type false nonzero w "integer" s <> Some v.
Proof.
  exists "2147483648", 2147483648%Z. split.
  - split; [apply Lit_none, big_zero; [discriminate|reflexivity]|]. exists (None, None). split; [left; reflexivity|]. split; intros x E; discriminate E.
  - intros nonzero w v H. destruct nonzero; vm_compute in H; discriminate H.
Qed.
Print Assumptions C95_integer_refuted.

(** Positive numbers are read for [negativeInteger] and [nonPositiveInteger] in every configuration, *)
Theorem C95_negative_refuted : forall big nonzero, exists s z, forall name, In name ["negativeInteger"; "nonPositiveInteger"] ->
  read_type big nonzero 64 name s = Some (VInt z) /\ forall z', ~ denotes_int name s z'.
Proof.
  intros big nonzero. exists "5", 5%Z. intros name HN.
  assert (HL : forall z', int_literal "5" z' -> z' = 5%Z).
  { intros z' H. assert (E : big_from_str true "5" = Some z') by (apply big_literal; split; [exact H|discriminate]). vm_compute in E. injection E as <-. reflexivity. }
  destruct HN as [<-|[<-|[]]]; (split; [destruct big, nonzero; reflexivity|]); intros z' (H & b & HB & HI); apply HL in H; subst z';
    apply bounds_find in HB; cbn in HB; injection HB as <-; apply in_high in HI; lia.
Qed.
Print Assumptions C95_negative_refuted.

(** and zero for [positiveInteger], unless the non-zero types are used. *)
Theorem C95_positive_refuted : forall big, exists s z, read_type big false 64 "positiveInteger" s = Some (VInt z) /\
  forall z', ~ denotes_int "positiveInteger" s z'.
Proof.
  intros big. exists "0", 0%Z. split; [destruct big; reflexivity|]. intros z' (H & b & HB & HI).
  assert (E : big_from_str true "0" = Some z') by (apply big_literal; split; [exact H|discriminate]). vm_compute in E. injection E as <-.
  apply bounds_find in HB. cbn in HB. injection HB as <-. apply in_low in HI. lia.
Qed.
Print Assumptions C95_positive_refuted.

(** A zero with a minus is not read for types without a sign. *)
Theorem C95_minus_zero_refuted : forall big nonzero w name, In name ["nonNegativeInteger"; "unsignedLong"; "unsignedInt"; "unsignedShort"; "unsignedByte"] ->
  exists s z, denotes_int name s z /\ forall v, read_type big nonzero w name s <> Some v.
Proof.
  intros big nonzero w name HN. exists "-0", (- 0)%Z. split.
  - split; [apply (Lit_minus "0" 0), big_zero; [discriminate|reflexivity]|].
    destruct HN as [<-|[<-|[<-|[<-|[<-|[]]]]]]; eexists; (split; [cbn [bounds In]; tauto|]); first [apply in_both; lia|apply in_low; lia].
  - intros v H. destruct HN as [<-|[<-|[<-|[<-|[<-|[]]]]]]; destruct big, nonzero; discriminate H.
Qed.
Print Assumptions C95_minus_zero_refuted.

(** Other words are read as booleans. *)
Theorem C95_boolean_refuted : forall big nonzero w, exists s b, read_type big nonzero w "boolean" s = Some (VBool b) /\ forall b', ~ denotes_bool s b'.
Proof.
  intros big nonzero w. exists "yes", true. split; [destruct big, nonzero; reflexivity|]. intros [] [H|H]; discriminate H.
Qed.
Print Assumptions C95_boolean_refuted.

(** Texts that are no numbers are read for [decimal] and [double]. *)
Theorem C95_float_refuted : forall big nonzero w, exists s, ~ double_text s /\
  read_type big nonzero w "decimal" s = Some (VFloat s) /\ read_type big nonzero w "double" s = Some (VFloat s).
Proof.
  intros big nonzero w. exists "infinity".
  assert (HA : forall c r, "infinity" = String c r -> forall d, ~ is_digit c d).
  { intros c r E d [H1 H2]. injection E as <- _. cbn in H2. lia. }
  assert (HU : forall u t, "infinity" = u ++ t -> ~ unsigned_decimal u).
  { intros u t E [[HN HD]|(a & b & -> & HA' & HB & HN)].
    - destruct u as [|c u]; [elim HN; reflexivity|]. destruct (HD c (or_introl eq_refl)) as (d & D). exact (HA _ _ E d D).
    - destruct a as [|c a]; [discriminate E|]. destruct (HA' c (or_introl eq_refl)) as (d & D). exact (HA _ _ E d D). }
  assert (HM : forall m t, "infinity" = m ++ t -> ~ decimal_text m).
  { intros m t E (u & [->|[->| ->]] & H); [exact (HU u t E H)|discriminate E|discriminate E]. }
  split; [|split; destruct big, nonzero; reflexivity].
  intros [H|[(m & e & x & _ & E & H & _)|[H|[H|H]]]]; try discriminate H; [|exact (HM _ _ E H)].
  apply (HM "infinity" ""); [reflexivity|exact H].
Qed.
Print Assumptions C95_float_refuted.

(** Infinity is written with a text that is not valid. *)
Theorem C95_infinity_refuted : ~ double_text (write_special (FInf false)).
Proof.
  assert (HA : forall c r, "inf" = String c r -> forall d, ~ is_digit c d).
  { intros c r E d [H1 H2]. injection E as <- _. cbn in H2. lia. }
  assert (HU : forall u t, "inf" = u ++ t -> ~ unsigned_decimal u).
  { intros u t E [[HN HD]|(a & b & -> & HA' & HB & HN)].
    - destruct u as [|c u]; [elim HN; reflexivity|]. destruct (HD c (or_introl eq_refl)) as (d & D). exact (HA _ _ E d D).
    - destruct a as [|c a]; [discriminate E|]. destruct (HA' c (or_introl eq_refl)) as (d & D). exact (HA _ _ E d D). }
  assert (HM : forall m t, "inf" = m ++ t -> ~ decimal_text m).
  { intros m t E (u & [->|[->| ->]] & H); [exact (HU u t E H)|discriminate E|discriminate E]. }
  intros [H|[(m & e & x & _ & E & H & _)|[H|[H|H]]]]; try discriminate H; [|exact (HM _ _ E H)].
  apply (HM "inf" ""); [reflexivity|exact H].
Qed.
Print Assumptions C95_infinity_refuted.

(** Every text is read for the types of dates and names. *)
Theorem C95_text_refuted : forall big nonzero w name s, In name ["date"; "dateTime"; "duration"; "time"; "gYear"; "language"; "NCName"; "anyURI"; "QName"] ->
  read_type big nonzero w name s = Some (VString s).
Proof.
  intros big nonzero w name s HN. unfold read_type.
  repeat (destruct HN as [<-|HN]; [destruct big, nonzero; reflexivity|]). destruct HN.
Qed.
Print Assumptions C95_text_refuted.
