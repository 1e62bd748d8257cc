(** C81: the values of simple types are read as the schema says. *)
From Coq Require Import ZArith String.
From Verif Require Import SimpleModel SimpleSpec SimpleInst SimpleTextProofs SimpleProofs.

Theorem C81_simple_partial (atom : Type) (parse : nat -> list N -> option atom) builtin_white (lt le : atom -> atom -> bool)
    (size chars : atom -> nat) (matches : list N -> list N -> bool) d :
  (forall b s a, clear_text false s -> parse b s = Some a -> size a = chars a) ->
  plain parse builtin_white lt le chars matches d ->
  exists m fixed, interpret d = Ok (m, fixed) /\ generate parse m = Ok tt /\ forall t, clear_text (has_digits d) t ->
    (forall x, denotes parse builtin_white lt le chars matches d t x ->
       exists v, read parse lt le size matches m t = Ok v /\ stands parse builtin_white lt le chars matches d v x) /\
    (forall v, read parse lt le size matches m t = Ok v ->
       exists x, stands parse builtin_white lt le chars matches d v x /\ denotes parse builtin_white lt le chars matches d t x).
Proof. intros H. apply simple_types, H. Qed.
Print Assumptions C81_simple_partial.

Theorem C81_collapsed_partial (atom : Type) (parse : nat -> list N -> option atom) builtin_white (lt le : atom -> atom -> bool)
    (size chars : atom -> nat) (matches : list N -> list N -> bool) d l t m fixed :
  (forall b s a, clear_text false s -> parse b s = Some a -> size a = chars a) ->
  plain parse builtin_white lt le chars matches d ->
  enumerated d = false -> (exists b, kind d = KAtom b) -> stated_white d = Some WCollapse ->
  interpret d = Ok (m, fixed) -> Forall (clear_word (has_digits d)) l -> words_of xml_ws l t ->
  read parse lt le size matches m t = read parse lt le size matches m (join_blank l) /\
  forall x, denotes parse builtin_white lt le chars matches d t x <-> denotes parse builtin_white lt le chars matches d (join_blank l) x.
Proof. intros H. apply simple_collapsed, H. Qed.
Print Assumptions C81_collapsed_partial.

Theorem C81_no_panic (atom : Type) (parse : nat -> list N -> option atom) (lt le : atom -> atom -> bool)
    (size : atom -> nat) (matches : list N -> list N -> bool) m t :
  read parse lt le size matches m t <> Panic.
Proof. apply read_total. Qed.
Print Assumptions C81_no_panic.

(** ** The instance meets the hypotheses *)

Lemma ascii_bytes s : Forall (fun c => (32 <= c < 128)%N) s -> ibytes (IText s) = ichars (IText s).
Proof.
  cbn. induction 1 as [|c s H _ IH]; [reflexivity|]. cbn. destruct (N.ltb_spec c 128); [|lia]. rewrite IH. reflexivity.
Qed.
Lemma instance_sizes b s a : clear_text false s -> iparse b s = Some a -> ibytes a = ichars a.
Proof.
  intros (l & -> & H) E. assert (HX : a = IText (join_blank l) \/ exists z, a = INum z \/ a = INaN).
  { destruct b as [|[|b]]; cbn in E.
    - injection E as <-. left. reflexivity.
    - destruct (inum _) as [z|]; [|discriminate]. injection E as <-. right. exists z. left. reflexivity.
    - destruct (str_eq_dec _ _); [injection E as <-; right; exists 0%Z; right; reflexivity|].
      destruct (inum _) as [z|]; [|discriminate]. injection E as <-. right. exists z. left. reflexivity. }
  destruct HX as [->|(z & [->| ->])]; [|reflexivity|reflexivity]. apply ascii_bytes, ok_chars, (clear_ok _ _ H).
Qed.

Lemma clear_one dg c w : Forall (fun c => (32 < c < 128)%N) (c :: w) -> dg = false -> clear_text dg (c :: w).
Proof. intros H ->. apply word_text. split; [discriminate|]. split; [exact H|discriminate]. Qed.

(** Percentages, and lists of two flags at most. *)
Definition percent : sdef := SRestriction false (SBuiltin 1 false) [FMinInclusive (txt "0"); FMaxInclusive (txt "100"); FPattern (txt "..")].
Definition flags : sdef :=
  SRestriction false (SList (SRestriction false (SBuiltin 0 false) [FEnumeration (txt "a"); FEnumeration (txt "b")])) [FMaxLength 2].

Ltac members H := repeat (destruct H as [H|H]; [try discriminate H|]); try destruct H.

Lemma num_text t z : clear_text false t -> iparse 1 t = Some z -> idenotes (SBuiltin 1 false) t (XAtom z).
Proof. intros HC E. apply (atom_text iparse iwhite ilt ile ichars imatches 1 t (XAtom z) HC). exists z. auto. Qed.

Lemma percent_plain : iplain percent.
Proof.
  split; [exact I|]. split; [reflexivity|]. cbn [kind].
  split; [split|split; [|split; [|split; [discriminate|split; [discriminate|]]]]].
  - intros f v Hf Hv. split.
    { intros s t x y Ex Ey. cbn in Ex, Ey. destruct (inum s), (inum t); try discriminate. injection Ex as <-. injection Ey as <-.
      cbn. destruct (Z.leb_spec z z0), (Z.ltb_spec z0 z); try reflexivity; lia. }
    cbn in Hf. destruct Hf as [<-|[<-|[<-|[]]]]; try discriminate Hv; injection Hv as <-.
    + assert (HC : clear_text false (txt "0")) by (apply clear_one; [repeat constructor|reflexivity]).
      split; [exact HC|]. exists (INum 0). apply num_text; [exact HC|reflexivity].
    + assert (HC : clear_text false (txt "100")) by (apply clear_one; [repeat constructor|reflexivity]).
      split; [exact HC|]. exists (INum 100). apply num_text; [exact HC|reflexivity].
  - intros [H|[H|[H|[]]]]; discriminate.
  - intros i j f g k Hi Hj Hf Hg.
    destruct i as [|[|[|[|i]]]]; cbn in Hi; try discriminate Hi; injection Hi as <-;
    destruct j as [|[|[|[|j]]]]; cbn in Hj; try discriminate Hj; injection Hj as <-; try reflexivity;
    exfalso; destruct k; cbn in Hf, Hg; congruence.
  - intros k _ s x _. exact I.
  - intros e [H|[H|[H|[]]]]; discriminate.
Qed.

Lemma flags_plain : iplain flags.
Proof.
  assert (HE : iplain (SRestriction false (SBuiltin 0 false) [FEnumeration (txt "a"); FEnumeration (txt "b")])).
  { split; [exact I|]. split; [reflexivity|]. cbn [kind].
    split; [split|split; [|split; [|split; [discriminate|split; [discriminate|]]]]].
    - intros f v [<-|[<-|[]]] Hv; discriminate.
    - intros [H|[H|[]]]; discriminate.
    - intros i j f g k Hi Hj Hf Hg. destruct i as [|[|i]]; cbn in Hi; [| |destruct i; discriminate]; injection Hi as <-; destruct k; elim Hf; reflexivity.
    - intros k _ s x _. exact I.
    - assert (HT : forall t x, idenotes (SBuiltin 0 false) t x <-> x = XAtom (IText t)).
      { intros t x. cbn. split; [intros (s & a & -> & E & ->); injection E as <-; reflexivity|intros ->; exists t, (IText t); auto]. }
      assert (HX : forall e, e = txt "a" \/ e = txt "b" -> clear_text false e /\
        (exists x, idenotes (SRestriction false (SBuiltin 0 false) [FEnumeration (txt "a"); FEnumeration (txt "b")]) e x) /\
        (forall t x, clear_text false t -> idenotes (SBuiltin 0 false) t x -> idenotes (SBuiltin 0 false) e x -> t = e)).
      { intros e He. assert (HC : clear_text false e) by (destruct He as [->| ->]; (apply clear_one; [repeat constructor|reflexivity])).
        split; [exact HC|]. split.
        - exists (XAtom (IText e)). apply (denotes_step _ _ _ _ _ _ false _ _ _ _ false HC). split; [apply HT; reflexivity|].
          split; [intros f [<-|[<-|[]]]; exact I|]. split; [intros (p & [H|[H|[]]]); discriminate|].
          intros _. exists e. split; [destruct He as [->| ->]; [left|right; left]; reflexivity|apply HT; reflexivity].
        - intros t x _ H1 H2. apply HT in H1. apply HT in H2. congruence. }
      intros e [H|[H|[]]]; injection H as <-; apply HX; auto. }
  split; [exact HE|]. split; [reflexivity|]. cbn [kind].
  split; [|split; [|split; [|split; [discriminate|split; [discriminate|]]]]].
  - intros f [<-|[]]. right. reflexivity.
  - intros i j f g k Hi Hj _ _. destruct i as [|i]; [|destruct i; discriminate]. destruct j as [|j]; [reflexivity|destruct j; discriminate].
  - intros k _ s x _. exact I.
  - intros e [H|[]]. discriminate.
Qed.

Example C81_simple_ex : iplain (SUnion [percent; flags]) /\ exists m fixed, interpret (SUnion [percent; flags]) = Ok (m, fixed) /\
  iread m (txt "42") = Ok (VUnion 0 (VAtom (INum 42))) /\ iread m (txt "a b") = Ok (VUnion 1 (VList [VEnum (txt "a"); VEnum (txt "b")])) /\
  iread m (txt "500") = Err RUnion /\ iread m (txt "a a b") = Err RUnion /\ clear_text false (txt "a b").
Proof.
  split; [split; [apply percent_plain|split; [apply flags_plain|exact I]]|].
  eexists. eexists. split; [reflexivity|]. repeat (split; [vm_compute; reflexivity|]).
  exists [txt "a"; txt "b"]. split; [reflexivity|]. repeat constructor; try discriminate; cbn; lia.
Qed.

(** Numbers of a restriction that asks for collapsed texts are read from texts with blanks. *)
Example C81_collapsed_ex : stated_white (SRestriction false (SBuiltin 1 false) [FWhiteSpace WCollapse]) = Some WCollapse /\
  exists m fixed, interpret (SRestriction false (SBuiltin 1 false) [FWhiteSpace WCollapse]) = Ok (m, fixed) /\
    iread m (txt "  7 ") = Ok (VAtom (INum 7)) /\ words_of xml_ws [txt "7"] (txt "  7 ").
Proof.
  split; [reflexivity|]. eexists. eexists. split; [reflexivity|]. split; [vm_compute; reflexivity|].
  apply (wo_word xml_ws (txt "  ") (txt "7") (txt " ") []); try reflexivity; [discriminate|]. constructor. reflexivity.
Qed.

(** ** Where the code is wrong *)

(** The patterns of two steps of a derivation hold both. *)
Theorem C81_patterns_refuted : exists d m fixed t v, interpret d = Ok (m, fixed) /\ igenerate m = Ok tt /\
  clear_text (has_digits d) t /\ iread m t = Ok v /\ forall x, ~ idenotes d t x.
Proof.
  exists (SRestriction false (SRestriction false (SBuiltin 0 false) [FPattern (txt "a.")]) [FPattern (txt ".b")]).
  do 2 eexists. exists (txt "ax"). eexists.
  split; [reflexivity|]. split; [reflexivity|]. split; [apply clear_one; [repeat constructor|reflexivity]|].
  split; [vm_compute; reflexivity|].
  intros x (s & -> & _ & _ & H & _). destruct (H (ex_intro _ _ (or_introl eq_refl))) as (p & [E|[]] & M). injection E as <-. discriminate M.
Qed.
Print Assumptions C81_patterns_refuted.

(** Lengths of strings are counted in bytes. *)
Theorem C81_length_refuted : exists d m fixed t x, interpret d = Ok (m, fixed) /\ igenerate m = Ok tt /\
  idenotes d t x /\ iread m t = Err RMaxLength.
Proof.
  exists (SRestriction false (SBuiltin 0 false) [FMaxLength 1]). do 2 eexists. exists [228%N], (XAtom (IText [228%N])).
  split; [reflexivity|]. split; [reflexivity|]. split; [|vm_compute; reflexivity].
  exists [228%N]. split; [reflexivity|]. split; [exists [228%N], (IText [228%N]); repeat split|].
  split; [intros f [<-|[]] k E; injection E as <-; apply le_n|]. split; intros (p & [H|[]]); discriminate.
Qed.
Print Assumptions C81_length_refuted.

(** Blanks around the texts of built-in types are not removed. *)
Theorem C81_blanks_refuted : exists d m fixed t x, interpret d = Ok (m, fixed) /\ igenerate m = Ok tt /\
  idenotes d t x /\ iread m t = Err RInvalid.
Proof.
  exists (SBuiltin 1 false). do 2 eexists. exists (txt " 5 "), (XAtom (INum 5)).
  split; [reflexivity|]. split; [reflexivity|]. split; [|vm_compute; reflexivity].
  exists (txt "5"), (INum 5). split; [|split; reflexivity]. exists [txt "5"]. split; [|reflexivity].
  apply (wo_word xml_ws (txt " ") (txt "5") (txt " ") []); try reflexivity; [discriminate|]. constructor. reflexivity.
Qed.
Print Assumptions C81_blanks_refuted.

(** Enumerated values are compared before white space is normalized. *)
Theorem C81_enumeration_blanks_refuted : exists d m fixed t x, interpret d = Ok (m, fixed) /\ igenerate m = Ok tt /\
  stated_white d = Some WCollapse /\ idenotes d t x /\ iread m t = Err RUnknown.
Proof.
  exists (SRestriction false (SBuiltin 0 false) [FWhiteSpace WCollapse; FEnumeration (txt "a")]). do 2 eexists. exists (txt " a "), (XAtom (IText (txt "a"))).
  split; [reflexivity|]. split; [reflexivity|]. split; [reflexivity|]. split; [|vm_compute; reflexivity].
  assert (HD : idenotes (SBuiltin 0 false) (txt "a") (XAtom (IText (txt "a")))) by (exists (txt "a"), (IText (txt "a")); repeat split).
  exists (txt "a"). split.
  { exists [txt "a"]. split; [|reflexivity].
    apply (wo_word xml_ws (txt " ") (txt "a") (txt " ") []); try reflexivity; [discriminate|]. constructor. reflexivity. }
  split; [exact HD|]. split; [intros f [<-|[<-|[]]]; exact I|]. split; [intros (p & [H|[H|[]]]); discriminate|].
  intros _. exists (txt "a"). split; [right; left; reflexivity|exact HD].
Qed.
Print Assumptions C81_enumeration_blanks_refuted.

(** Enumerated values are compared by their texts. *)
Theorem C81_enumeration_text_refuted : exists d m fixed t x, interpret d = Ok (m, fixed) /\ igenerate m = Ok tt /\
  clear_text (has_digits d) t /\ idenotes d t x /\ iread m t = Err RUnknown.
Proof.
  exists (SRestriction false (SBuiltin 1 false) [FEnumeration (txt "5")]). do 2 eexists. exists (txt "05"), (XAtom (INum 5)).
  split; [reflexivity|]. split; [reflexivity|].
  assert (HC : forall t, t = txt "5" \/ t = txt "05" -> clear_text false t).
  { intros t [->| ->]; (apply clear_one; [repeat constructor|reflexivity]). }
  split; [apply HC; auto|]. split; [|vm_compute; reflexivity].
  apply (denotes_step _ _ _ _ _ _ false _ _ _ _ false (HC _ (or_intror eq_refl))).
  split; [apply num_text; [apply HC; auto|reflexivity]|].
  split; [intros f [<-|[]]; exact I|]. split; [intros (p & [H|[]]); discriminate|].
  intros _. exists (txt "5"). split; [left; reflexivity|]. apply num_text; [apply HC; auto|reflexivity].
Qed.
Print Assumptions C81_enumeration_text_refuted.

(** Lists have single blanks between their items. *)
Theorem C81_list_refuted : exists d m fixed t x, interpret d = Ok (m, fixed) /\ igenerate m = Ok tt /\
  idenotes d t x /\ iread m t = Err RInvalid.
Proof.
  exists (SBuiltin 1 true). do 2 eexists. exists (txt "1  2"), (XList [XAtom (INum 1); XAtom (INum 2)]).
  split; [reflexivity|]. split; [reflexivity|]. split; [|vm_compute; reflexivity].
  exists [txt "1"; txt "2"], [INum 1; INum 2]. split; [|split; [repeat constructor|reflexivity]].
  apply (wo_word xml_ws [] (txt "1") (txt "  2") [txt "2"]); try reflexivity; [discriminate|].
  apply (wo_word xml_ws (txt "  ") (txt "2") [] []); try reflexivity; [discriminate|]. constructor. reflexivity.
Qed.
Print Assumptions C81_list_refuted.

(** The code of lists with patterns is not generated. *)
Theorem C81_list_pattern_refuted : exists d m fixed, interpret d = Ok (m, fixed) /\ igenerate m = Panic /\
  exists t x, idenotes d t x.
Proof.
  exists (SRestriction false (SBuiltin 1 true) [FPattern (txt "1 2")]). do 2 eexists.
  split; [reflexivity|]. split; [reflexivity|]. exists (txt "1 2"), (XList [XAtom (INum 1); XAtom (INum 2)]).
  assert (HW : words_of xml_ws [txt "1"; txt "2"] (txt "1 2")).
  { apply (wo_word xml_ws [] (txt "1") (txt " 2") [txt "2"]); try reflexivity; [discriminate|].
    apply (wo_word xml_ws (txt " ") (txt "2") [] []); try reflexivity; [discriminate|]. constructor. reflexivity. }
  exists (txt "1 2"). split; [exists [txt "1"; txt "2"]; split; [exact HW|reflexivity]|].
  split; [exists [txt "1"; txt "2"], [INum 1; INum 2]; split; [exact HW|split; [repeat constructor|reflexivity]]|].
  split; [intros f [<-|[]]; exact I|]. split; [|intros (p & [H|[]]); discriminate].
  intros _. exists (txt "1 2"). split; [left; reflexivity|reflexivity].
Qed.
Print Assumptions C81_list_pattern_refuted.

(** An enumeration that is restricted by other facets has no values. *)
Theorem C81_restricted_enumeration_refuted : exists d m fixed, interpret d = Ok (m, fixed) /\ igenerate m = Ok tt /\
  (exists t x, clear_text (has_digits d) t /\ idenotes d t x) /\ forall t v, iread m t <> Ok v.
Proof.
  exists (SRestriction false (SRestriction false (SBuiltin 0 false) [FEnumeration (txt "a"); FEnumeration (txt "ab")]) [FMaxLength 1]).
  do 2 eexists. split; [reflexivity|]. split; [reflexivity|]. split.
  - assert (HD : idenotes (SBuiltin 0 false) (txt "a") (XAtom (IText (txt "a")))) by (exists (txt "a"), (IText (txt "a")); repeat split).
    exists (txt "a"), (XAtom (IText (txt "a"))). split; [apply clear_one; [repeat constructor|reflexivity]|].
    exists (txt "a"). split; [reflexivity|]. split.
    + exists (txt "a"). split; [reflexivity|]. split; [exact HD|]. split; [intros f [<-|[<-|[]]]; exact I|].
      split; [intros (p & [H|[H|[]]]); discriminate|]. intros _. exists (txt "a"). split; [left; reflexivity|exact HD].
    + split; [intros f [<-|[]] k E; injection E as <-; apply le_n|]. split; intros (p & [H|[]]); discriminate.
  - intros t v H. cbn in H. unfold validation in H. cbn in H. discriminate.
Qed.
Print Assumptions C81_restricted_enumeration_refuted.

(** An enumeration whose base is defined inside of it has the values of its base. *)
Theorem C81_inline_enumeration_refuted : exists d m fixed t v, interpret d = Ok (m, fixed) /\ igenerate m = Ok tt /\
  clear_text (has_digits d) t /\ iread m t = Ok v /\ forall x, ~ idenotes d t x.
Proof.
  exists (SRestriction true (SRestriction false (SBuiltin 0 false) [FEnumeration (txt "a"); FEnumeration (txt "b")]) [FEnumeration (txt "a")]).
  do 2 eexists. exists (txt "b"). eexists. split; [reflexivity|]. split; [reflexivity|].
  split; [apply clear_one; [repeat constructor|reflexivity]|]. split; [vm_compute; reflexivity|].
  intros x (s & -> & (s1 & -> & (s2 & a & -> & E & ->) & _) & _ & _ & H). injection E as <-.
  destruct (H (ex_intro _ _ (or_introl eq_refl))) as (e & [E|[]] & (s3 & -> & (s4 & a & -> & E' & E2) & _)).
  injection E as <-. injection E' as <-. discriminate E2.
Qed.
Print Assumptions C81_inline_enumeration_refuted.

(** An enumeration of lists or unions that are defined inside of it is not interpreted. *)
Theorem C81_inline_panic_refuted : exists item ms fs fs',
  interpret (SRestriction true (SList item) fs) = Panic /\ interpret (SRestriction true (SUnion ms) fs') = Panic /\
  (exists t x, idenotes (SRestriction true (SList item) fs) t x) /\ (exists t x, idenotes (SRestriction true (SUnion ms) fs') t x).
Proof.
  exists (SBuiltin 0 false), [SBuiltin 0 false], [FEnumeration (txt "a")], [FEnumeration (txt "a")].
  split; [reflexivity|]. split; [reflexivity|].
  assert (HD : idenotes (SBuiltin 0 false) (txt "a") (XAtom (IText (txt "a")))) by (exists (txt "a"), (IText (txt "a")); repeat split).
  assert (HW : words_of xml_ws [txt "a"] (txt "a")).
  { apply (wo_word xml_ws [] (txt "a") [] []); try reflexivity; [discriminate|]. constructor. reflexivity. }
  split; exists (txt "a").
  - exists (XList [XAtom (IText (txt "a"))]).
    assert (HL : idenotes (SList (SBuiltin 0 false)) (txt "a") (XList [XAtom (IText (txt "a"))])).
    { exists [txt "a"], [XAtom (IText (txt "a"))]. split; [exact HW|]. split; [constructor; [exact HD|constructor]|reflexivity]. }
    exists (txt "a"). split; [exists [txt "a"]; split; [exact HW|reflexivity]|]. split; [exact HL|].
    split; [intros f [<-|[]]; exact I|]. split; [intros (p & [H|[]]); discriminate|].
    intros _. exists (txt "a"). split; [left; reflexivity|exact HL].
  - exists (XUnion 0 (XAtom (IText (txt "a")))).
    assert (HL : idenotes (SUnion [SBuiltin 0 false]) (txt "a") (XUnion 0 (XAtom (IText (txt "a"))))).
    { left. exists (XAtom (IText (txt "a"))). split; [exact HD|reflexivity]. }
    exists (txt "a"). split; [reflexivity|]. split; [exact HL|].
    split; [intros f [<-|[]]; exact I|]. split; [intros (p & [H|[]]); discriminate|].
    intros _. exists (txt "a"). split; [left; reflexivity|exact HL].
Qed.
Print Assumptions C81_inline_panic_refuted.

(** Values that are not comparable pass bounds. *)
Theorem C81_incomparable_refuted : exists d m fixed t v, interpret d = Ok (m, fixed) /\ igenerate m = Ok tt /\
  clear_text (has_digits d) t /\ iread m t = Ok v /\ forall x, ~ idenotes d t x.
Proof.
  exists (SRestriction false (SBuiltin 2 false) [FMinInclusive (txt "0")]).
  do 2 eexists. exists (txt "NaN"). eexists. split; [reflexivity|]. split; [reflexivity|].
  assert (HC : clear_text false (txt "NaN")) by (apply clear_one; [repeat constructor|reflexivity]).
  split; [exact HC|]. split; [vm_compute; reflexivity|].
  intros x H. apply (denotes_step _ _ _ _ _ _ false _ _ _ _ false HC) in H as (H & HF & _).
  apply (atom_text iparse iwhite ilt ile ichars imatches 2 _ x HC) in H as (a & -> & E). vm_compute in E. injection E as <-.
  destruct (HF _ (or_introl eq_refl) INaN eq_refl) as (y & _ & E). destruct y; discriminate.
Qed.
Print Assumptions C81_incomparable_refuted.
