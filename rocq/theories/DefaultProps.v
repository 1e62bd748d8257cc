(** C84: the default of an attribute is the value of its text. *)
From Coq Require Import ZArith String.
From Verif Require Import SimpleModel SimpleSpec SimpleInst SimpleTextProofs SimpleProofs SimpleWriteProofs.
From Verif Require Import DefaultModel DefaultSpec DefaultInst DefaultProofs.

(** If the text of a default is valid, then the generated function gives the value that is
    read from this text: without lists, restricted members of unions before others, white
    space that is to be normalized, and infinite numbers. *)
Theorem C84_default_partial (atom : Type) class (parse : nat -> list N -> option atom) (lt le : atom -> atom -> bool)
    (size : atom -> nat) (matches : list N -> list N -> bool) (finite : atom -> bool) (truth : bool -> atom) m t v :
  reads_bools class parse truth -> finite_text class parse finite t -> single_values class m ->
  clear_text false t \/ keeps_blanks m ->
  read parse lt le size matches m t = Ok v ->
  exists e, make_value class parse finite truth m t = Ok e /\ run parse e = Ok v.
Proof. intros HB HF HS HC. apply (read_is_default class parse lt le size matches finite truth m t v HB HF HC HS). Qed.
Print Assumptions C84_default_partial.

(** The same with the values of the schema. *)
Theorem C84_schema_partial (atom : Type) class (parse : nat -> list N -> option atom) builtin_white (lt le : atom -> atom -> bool)
    (size chars : atom -> nat) (matches : list N -> list N -> bool) (finite : atom -> bool) (truth : bool -> atom) d m fixed t x :
  (forall b s a, clear_text false s -> parse b s = Some a -> size a = chars a) ->
  reads_bools class parse truth -> finite_text class parse finite t ->
  plain parse builtin_white lt le chars matches d -> interpret d = Ok (m, fixed) -> single_values class m ->
  clear_text (has_digits d) t -> denotes parse builtin_white lt le chars matches d t x ->
  exists e v, make_value class parse finite truth m t = Ok e /\ run parse e = Ok v /\
    stands parse builtin_white lt le chars matches d v x.
Proof.
  intros HZ HB HF HP HI HS HC HD.
  destruct (simple_types parse builtin_white lt le size chars matches HZ d HP) as (m' & fixed' & HI' & _ & H).
  assert (m' = m) by congruence. subst m'. destruct (H t HC) as (H1 & _). destruct (H1 x HD) as (v & Hr & Hst).
  destruct (read_is_default class parse lt le size matches finite truth m t v HB HF) as (e & He & Hv); eauto.
  left. apply (clear_mono (has_digits d)); [discriminate|exact HC].
Qed.
Print Assumptions C84_schema_partial.

(** Nothing else becomes the default of a type without facets: a text that is not valid is
    refused. *)
Theorem C84_valid_partial (atom : Type) class (parse : nat -> list N -> option atom) (lt le : atom -> atom -> bool)
    (size : atom -> nat) (matches : list N -> list N -> bool) (finite : atom -> bool) (truth : bool -> atom) m t e :
  unrestricted class m -> make_value class parse finite truth m t = Ok e ->
  exists v, run parse e = Ok v /\ read parse lt le size matches m t = Ok v.
Proof. apply default_is_read. Qed.
Print Assumptions C84_valid_partial.

(** The generator does not panic, unless the text is an infinite number. *)
Theorem C84_no_panic_partial (atom : Type) class (parse : nat -> list N -> option atom) (finite : atom -> bool) (truth : bool -> atom) m t :
  finite_text class parse finite t -> make_value class parse finite truth m t <> Panic.
Proof. apply make_no_panic. Qed.
Print Assumptions C84_no_panic_partial.

(** ** The hypotheses are met *)

Lemma instance_bools : reads_bools dclass dparse DBool.
Proof. intros b E s. destruct b as [|[|[|[|b]]]]; try discriminate E. reflexivity. Qed.

(** The union of two enumerations, truth values and numbers of two digits at most. *)
Definition mode : smeta :=
  MUnion no_constrains
    [MEnum no_constrains [txt "on"; txt "off"]; MEnum no_constrains [txt "auto"];
     MRef (MSimple (MBuildIn 1) false (Constrains (Included (txt "0")) (Excluded (txt "100")) None None [] None None WCollapse)) false].

Example C84_default_ex : single_values dclass mode /\ clear_text false (txt "auto") /\ clear_text false (txt "42") /\
  finite_text dclass dparse dfinite (txt "42") /\
  dread mode (txt "auto") = Ok (VUnion 1 (VEnum (txt "auto"))) /\ dread mode (txt "42") = Ok (VUnion 2 (VAtom (DNum 42))) /\
  dmake mode (txt "auto") = Ok (DVariant 1 (DEnum (txt "auto"))) /\ dmake mode (txt "42") = Ok (DVariant 2 (DConst (DNum 42))).
Proof.
  split; [repeat split; auto; right; repeat split|].
  split; [exists [txt "auto"]; split; [reflexivity|]; repeat constructor; try discriminate; cbn; lia|].
  split; [exists [txt "42"]; split; [reflexivity|]; repeat constructor; try discriminate; cbn; lia|].
  split; [|repeat split].
  intros b a E H. destruct b as [|[|[|[|b]]]]; try discriminate E. vm_compute in H. injection H as <-. reflexivity.
Qed.

Example C84_schema_ex : dplain (SUnion [SBuiltin 1 false; SBuiltin 0 false]) /\
  exists m fixed, interpret (SUnion [SBuiltin 1 false; SBuiltin 0 false]) = Ok (m, fixed) /\ single_values dclass m /\
    dmake m (txt "5") = Ok (DVariant 0 (DConst (DNum 5))) /\ dmake m (txt "x") = Ok (DVariant 1 (DConst (DText (txt "x")))) /\
    ddenotes (SUnion [SBuiltin 1 false; SBuiltin 0 false]) (txt "x") (XUnion 1 (XAtom (DText (txt "x")))).
Proof.
  split; [repeat split|]. do 2 eexists. split; [reflexivity|].
  split; [split; [repeat split|split; [right; split; [reflexivity|split; discriminate]|repeat split; auto]]|].
  split; [reflexivity|]. split; [reflexivity|].
  right. split.
  - intros y (s & a & (l & Hl & ->) & E & _). apply (words_unique xml_ws [txt "x"]) in Hl.
    + subst l. discriminate E.
    + apply (wo_word xml_ws [] (txt "x") [] []); try reflexivity; [discriminate|]. constructor. reflexivity.
  - left. eexists. split; [|reflexivity]. exists (txt "x"), (DText (txt "x")). repeat split.
Qed.

Example C84_valid_ex : unrestricted dclass (MUnion no_constrains [MBuildIn 1; MEnum no_constrains [txt "a"]; MBuildIn 2]) /\
  dmake (MUnion no_constrains [MBuildIn 1; MEnum no_constrains [txt "a"]; MBuildIn 2]) (txt "a") = Ok (DVariant 1 (DEnum (txt "a"))) /\
  dmake (MUnion no_constrains [MBuildIn 1; MEnum no_constrains [txt "a"]; MBuildIn 2]) (txt "b") = Err InvalidDefaultValue.
Proof. repeat split; discriminate. Qed.

(** ** Where the code is wrong *)

Definition small : sdef := SRestriction false (SBuiltin 1 false) [FMinInclusive (txt "0"); FMaxInclusive (txt "10")].

(** Facets are not checked: a default may be no value of its type. *)
Theorem C84_facet_refuted : exists d m fixed t e v, interpret d = Ok (m, fixed) /\ dgenerate m = Ok tt /\
  clear_text (has_digits d) t /\ dmake m t = Ok e /\ drun e = Ok v /\ (forall x, ~ ddenotes d t x) /\ forall s, dread m s <> Ok v.
Proof.
  exists small. do 2 eexists. exists (txt "50"), (DConst (DNum 50)), (VAtom (DNum 50)).
  assert (HC : clear_text false (txt "50")).
  { exists [txt "50"]. split; [reflexivity|]. repeat constructor; try discriminate; cbn; lia. }
  split; [reflexivity|]. split; [reflexivity|]. split; [exact HC|]. split; [reflexivity|]. split; [reflexivity|]. split.
  - intros x H. apply (denotes_step _ _ _ _ _ _ false _ _ _ _ false HC) in H as (H & HF & _).
    apply (atom_text dparse dwhite dlt dle dsize imatches 1 _ x HC) in H as (a & -> & E). vm_compute in E. injection E as <-.
    destruct (HF _ (or_intror (or_introl eq_refl)) (DNum 50) eq_refl) as (y & Hy & E).
    assert (HC' : clear_text false (txt "10")).
    { exists [txt "10"]. split; [reflexivity|]. repeat constructor; try discriminate; cbn; lia. }
    apply (atom_text dparse dwhite dlt dle dsize imatches 1 _ _ HC') in Hy as (a & Ea & Ey). injection Ea as ->.
    vm_compute in Ey. injection Ey as <-. discriminate E.
  - intros s H. apply read_simple_ok in H as (s' & _ & _ & HV). discriminate HV.
Qed.
Print Assumptions C84_facet_refuted.

(** In a union, a default goes to a member that does not read it. *)
Theorem C84_union_refuted : exists d m fixed t v w e, interpret d = Ok (m, fixed) /\ dgenerate m = Ok tt /\
  clear_text (has_digits d) t /\ dread m t = Ok v /\ dmake m t = Ok e /\ drun e = Ok w /\ v <> w /\ forall s, dread m s <> Ok w.
Proof.
  exists (SUnion [small; SBuiltin 0 false]). do 2 eexists.
  exists (txt "50"), (VUnion 1 (VAtom (DText (txt "50")))), (VUnion 0 (VAtom (DNum 50))), (DVariant 0 (DConst (DNum 50))).
  split; [reflexivity|]. split; [reflexivity|].
  split; [exists [txt "50"]; split; [reflexivity|]; repeat constructor; try discriminate; cbn; lia|].
  split; [reflexivity|]. split; [reflexivity|]. split; [reflexivity|]. split; [discriminate|].
  intros s H. rewrite (read_union dparse dlt dle dsize imatches _ _ s s) in H by reflexivity. cbn [try_read] in H.
  match type of H with context [SimpleModel.read _ _ _ _ _ ?m ?t] => destruct (SimpleModel.read dparse dlt dle dsize imatches m t) as [v|k|] eqn:E end.
  - injection H as ->. apply read_simple_ok in E as (s' & _ & _ & HV). discriminate HV.
  - cbn in H. discriminate H.
  - discriminate H.
Qed.
Print Assumptions C84_union_refuted.

(** Truth values are taken from texts that are read as strings. *)
Theorem C84_bool_refuted : exists d m fixed t x v w e, interpret d = Ok (m, fixed) /\ dgenerate m = Ok tt /\
  dplain d /\ clear_text (has_digits d) t /\ ddenotes d t x /\ dread m t = Ok v /\ dmake m t = Ok e /\ drun e = Ok w /\ v <> w /\ ~ dstands d w x.
Proof.
  exists (SUnion [SBuiltin 3 false; SBuiltin 0 false]). do 2 eexists.
  exists (txt "yES"), (XUnion 1 (XAtom (DText (txt "yES")))), (VUnion 1 (VAtom (DText (txt "yES")))), (VUnion 0 (VAtom (DBool true))), (DVariant 0 (DConst (DBool true))).
  split; [reflexivity|]. split; [reflexivity|]. split; [repeat split|].
  split; [exists [txt "yES"]; split; [reflexivity|]; repeat constructor; try discriminate; cbn; lia|].
  split; [right; split|].
  - intros y (s & a & (l & Hl & ->) & E & _). apply (words_unique xml_ws [txt "yES"]) in Hl.
    + subst l. discriminate E.
    + apply (wo_word xml_ws [] (txt "yES") [] []); try reflexivity; [discriminate|]. constructor. reflexivity.
  - left. eexists. split; [|reflexivity]. exists (txt "yES"), (DText (txt "yES")). repeat split.
  - split; [reflexivity|]. split; [reflexivity|]. split; [reflexivity|]. split; [discriminate|].
    intros [(v & y & _ & E & _)|[(v & y & E & _)|[]]]; discriminate E.
Qed.
Print Assumptions C84_bool_refuted.

(** Blanks are not removed: defaults that are valid are refused, or keep their blanks. *)
Theorem C84_blanks_refuted :
  (exists d m fixed t v, interpret d = Ok (m, fixed) /\ dgenerate m = Ok tt /\ (exists x, ddenotes d t x) /\
     dread m t = Ok v /\ dmake m t = Err InvalidDefaultValue) /\
  (exists d m fixed t v w e, interpret d = Ok (m, fixed) /\ dgenerate m = Ok tt /\ (exists x, ddenotes d t x) /\
     dread m t = Ok v /\ dmake m t = Ok e /\ drun e = Ok w /\ v <> w).
Proof.
  assert (HW : words_of xml_ws [txt "5"] (txt " 5 ")).
  { apply (wo_word xml_ws (txt " ") (txt "5") (txt " ") []); try reflexivity; [discriminate|]. constructor. reflexivity. }
  assert (HW' : words_of xml_ws [txt "5"] (txt "5")).
  { apply (wo_word xml_ws [] (txt "5") [] []); try reflexivity; [discriminate|]. constructor. reflexivity. }
  split.
  - exists (SRestriction false (SBuiltin 1 false) [FWhiteSpace WCollapse]). do 2 eexists. exists (txt " 5 "), (VAtom (DNum 5)).
    split; [reflexivity|]. split; [reflexivity|]. split; [|split; reflexivity]. exists (XAtom (DNum 5)), (txt "5").
    split; [exists [txt "5"]; auto|]. split; [exists (txt "5"), (DNum 5); split; [exists [txt "5"]; auto|auto]|].
    split; [intros f [<-|[]]; exact I|]. split; intros (p & [H|[]]); discriminate.
  - exists (SRestriction false (SBuiltin 0 false) [FWhiteSpace WCollapse]). do 2 eexists.
    exists (txt " 5 "), (VAtom (DText (txt "5"))), (VAtom (DText (txt " 5 "))), (DConst (DText (txt " 5 "))).
    split; [reflexivity|]. split; [reflexivity|]. split; [|repeat split; discriminate]. exists (XAtom (DText (txt "5"))), (txt "5").
    split; [exists [txt "5"]; auto|]. split; [exists (txt "5"), (DText (txt "5")); repeat split|].
    split; [intros f [<-|[]]; exact I|]. split; intros (p & [H|[]]); discriminate.
Qed.
Print Assumptions C84_blanks_refuted.

(** Defaults of lists are refused unless they are empty; in a union they go to another
    member; for a restricted list the generated function gives one item, which is no value
    of its type. *)
Theorem C84_list_refuted :
  (exists d m fixed t v, interpret d = Ok (m, fixed) /\ dgenerate m = Ok tt /\ clear_text (has_digits d) t /\
     dread m t = Ok v /\ dmake m t = Err InvalidDefaultValue) /\
  (exists d m fixed t v w e, interpret d = Ok (m, fixed) /\ dgenerate m = Ok tt /\ clear_text (has_digits d) t /\
     dread m t = Ok v /\ dmake m t = Ok e /\ drun e = Ok w /\ v <> w) /\
  (exists d m fixed t l e a, interpret d = Ok (m, fixed) /\ dgenerate m = Ok tt /\ clear_text (has_digits d) t /\
     dread m t = Ok (VList l) /\ dmake m t = Ok e /\ drun e = Ok (VAtom a)).
Proof.
  assert (HC : clear_text false (txt "1 2")).
  { exists [txt "1"; txt "2"]. split; [reflexivity|]. repeat constructor; try discriminate; cbn; lia. }
  assert (HC' : clear_text false (txt "1")).
  { exists [txt "1"]. split; [reflexivity|]. repeat constructor; try discriminate; cbn; lia. }
  split; [|split].
  - exists (SList (SBuiltin 1 false)). do 2 eexists. exists (txt "1 2"), (VList [VAtom (DNum 1); VAtom (DNum 2)]).
    split; [reflexivity|]. split; [reflexivity|]. split; [exact HC|]. split; reflexivity.
  - exists (SUnion [SList (SBuiltin 1 false); SBuiltin 0 false]). do 2 eexists.
    exists (txt "1 2"), (VUnion 0 (VList [VAtom (DNum 1); VAtom (DNum 2)])), (VUnion 1 (VAtom (DText (txt "1 2")))), (DVariant 1 (DConst (DText (txt "1 2")))).
    split; [reflexivity|]. split; [reflexivity|]. split; [exact HC|]. split; [reflexivity|]. split; [reflexivity|]. split; [reflexivity|discriminate].
  - exists (SRestriction false (SList (SBuiltin 1 false)) [FMaxLength 3]). do 2 eexists.
    exists (txt "1"), [VAtom (DNum 1)], (DConst (DNum 1)), (DNum 1).
    split; [reflexivity|]. split; [reflexivity|]. split; [exact HC'|]. repeat split.
Qed.
Print Assumptions C84_list_refuted.

(** The generator panics for infinite numbers. *)
Theorem C84_infinite_refuted : exists d m fixed t v x, interpret d = Ok (m, fixed) /\ dgenerate m = Ok tt /\
  dplain d /\ clear_text (has_digits d) t /\ dread m t = Ok v /\ ddenotes d t x /\ dmake m t = Panic.
Proof.
  exists (SBuiltin 2 false). do 2 eexists. exists (txt "INF"), (VAtom DInf), (XAtom DInf).
  split; [reflexivity|]. split; [reflexivity|]. split; [exact I|].
  split; [exists [txt "INF"]; split; [reflexivity|]; repeat constructor; try discriminate; cbn; lia|].
  split; [reflexivity|]. split; [|reflexivity]. exists (txt "INF"), DInf. split; [|split; reflexivity].
  exists [txt "INF"]. split; [|reflexivity].
  apply (wo_word xml_ws [] (txt "INF") [] []); try reflexivity; [discriminate|]. constructor. reflexivity.
Qed.
Print Assumptions C84_infinite_refuted.

(** For types of other libraries any text is taken; the generated function panics, where
    the next member of a union would read the text. *)
Theorem C84_from_str_refuted : exists d m fixed t v e, interpret d = Ok (m, fixed) /\ dgenerate m = Ok tt /\
  dplain d /\ clear_text (has_digits d) t /\ dread m t = Ok v /\ dmake m t = Ok e /\ drun e = Panic.
Proof.
  exists (SUnion [SBuiltin 4 false; SBuiltin 0 false]). do 2 eexists.
  exists (txt "x"), (VUnion 1 (VAtom (DText (txt "x")))), (DVariant 0 (DFromStr 4 (txt "x"))).
  split; [reflexivity|]. split; [reflexivity|]. split; [repeat split|].
  split; [exists [txt "x"]; split; [reflexivity|]; repeat constructor; try discriminate; cbn; lia|]. repeat split.
Qed.
Print Assumptions C84_from_str_refuted.
