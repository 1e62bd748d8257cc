(** C101: the fields of types for serde have names of their own. *)
From Verif Require Import SerdeNameProofs.
From Coq Require Import List String Ascii.
Import ListNotations.
Local Open Scope string_scope.

(** C101 for serde-xml-rs 0.8: every field and variant is found under its name, if each namespace
    has a prefix of its own and there is at most one text. *)
Theorem C101_v8_partial : forall prefix_of o c, declared c ->
  own_prefixes prefix_of (attributes_of c ++ elements_of c) -> all_found (rendered prefix_of XmlRs8 o c).
Proof. exact found_v8. Qed.
Print Assumptions C101_v8_partial.

(** C101 for quick-xml with serde: ..., if also the local names of the attributes are different, and
    those of the elements. *)
Theorem C101_quick_partial : forall prefix_of o c, declared c -> xml_name (o_content_name o) ->
  NoDup (map tg_name (attributes_of c)) -> NoDup (map tg_name (elements_of c)) ->
  all_found (rendered prefix_of QuickXml o c).
Proof. exact found_quick. Qed.
Print Assumptions C101_quick_partial.

(** C101 for serde-xml-rs up to 0.7: ..., if the local names of the elements are different, and
    none of them is that of an attribute. *)
Theorem C101_v7_partial : forall prefix_of o c, declared c -> xml_name (o_content_name o) ->
  own_prefixes prefix_of (attributes_of c) -> NoDup (map tg_name (elements_of c)) ->
  (forall a, In a (attributes_of c) -> tg_qualified a = false ->
     ~ In (tg_name a) (map tg_name (elements_of c)) /\ tg_name a <> o_content_name o) ->
  all_found (rendered prefix_of XmlRs7 o c).
Proof. exact found_v7. Qed.
Print Assumptions C101_v7_partial.

(** C101: every attribute and element that may occur has a field or variant. *)
Theorem C101_fields : forall prefix_of b o c,
  (forall t, In t (attributes_of c) ->
     exists l n, In l (rendered prefix_of b o c) /\ In (FAttribute t, n) l) /\
  (forall mixed min max es, cm_body c = BGroup mixed min max es \/ cm_body c = BChoice mixed min max es ->
     max <> Bounded 0 -> forall t, In t (elements_of c) ->
     exists l n, In l (rendered prefix_of b o c) /\ In (FElement t, n) l).
Proof. exact fields_there. Qed.
Print Assumptions C101_fields.

(** A type with attributes and elements of two namespaces. *)
Definition ex_prefixes (n : nat) : option string := nth_error ["a"; "b"] n.
Definition ex_options : options := Options true true "content".
Definition once (p : particle) : element_meta := ElementMeta p 1 (Bounded 1).
Definition ex_type : complex_meta := ComplexMeta
  [AttributeMeta (Tag 0 "id" false) false; AttributeMeta (Tag 1 "id" true) false; AttributeMeta (Tag 0 "old" false) true]
  (BGroup true 1 (Bounded 1)
    [once (PElement (Tag 0 "x" true)); ElementMeta (PElement (Tag 1 "x" true)) 0 Unbounded; once (PElement (Tag 0 "id" false));
     ElementMeta (PElement (Tag 0 "gone" true)) 0 (Bounded 0)]).
Ltac xml := let d := fresh in let J := fresh in split; [discriminate|intros d J; cbn in J; repeat destruct J as [<-|J]; try destruct J; repeat split; discriminate].
Ltac nodup := cbn; repeat constructor; cbn; intros J; repeat destruct J as [[=]|J]; try destruct J.
Example C101_case_declared : declared ex_type /\ own_prefixes ex_prefixes (attributes_of ex_type ++ elements_of ex_type).
Proof.
  split; split.
  - cbn. intros t [J|J]; repeat destruct J as [<-|J]; try destruct J; xml.
  - split; [nodup|]. split; [nodup|]. cbn. auto.
  - cbn. intros t J. repeat destruct J as [<-|J]; try destruct J; intros [=]; eexists; (split; [reflexivity|xml]).
  - cbn. intros t u J K. repeat destruct J as [<-|J]; try destruct J; repeat destruct K as [<-|K]; try destruct K; cbn; congruence.
Qed.
Example C101_case_names :
  map (map snd) (rendered ex_prefixes XmlRs8 ex_options ex_type) = [["@id"; "@b:id"; "#text"; "a:x"; "b:x"; "id"]] /\
  map (map snd) (rendered ex_prefixes XmlRs8 (Options false true "content") ex_type) =
    [["@id"; "@b:id"; "#text"; ""]; ["a:x"; "b:x"; "id"]].
Proof. split; reflexivity. Qed.

(** The same with different local names, for the other renderers. *)
Definition ex_simple : complex_meta := ComplexMeta
  [AttributeMeta (Tag 0 "id" false) false; AttributeMeta (Tag 1 "lang" true) false]
  (BChoice false 0 Unbounded [once (PElement (Tag 0 "x" true)); once (PElement (Tag 1 "y" true)); once PText]).
Example C101_case_simple :
  declared ex_simple /\ xml_name (o_content_name ex_options) /\ own_prefixes ex_prefixes (attributes_of ex_simple) /\
  NoDup (map tg_name (attributes_of ex_simple)) /\ NoDup (map tg_name (elements_of ex_simple)) /\
  (forall a, In a (attributes_of ex_simple) -> tg_qualified a = false ->
     ~ In (tg_name a) (map tg_name (elements_of ex_simple)) /\ tg_name a <> o_content_name ex_options) /\
  map (map snd) (rendered ex_prefixes XmlRs7 ex_options ex_simple) = [["id"; "b:lang"; "$value"]; ["x"; "y"; "#text"]] /\
  map (map snd) (rendered ex_prefixes QuickXml ex_options ex_simple) = [["@id"; "@lang"; "$value"]; ["x"; "y"; "$text"]].
Proof.
  split; [split|].
  { cbn. intros t [J|J]; repeat destruct J as [<-|J]; try destruct J; xml. }
  { split; [nodup|]. split; [nodup|]. cbn. auto. }
  split; [xml|]. split; [split|].
  { cbn. intros t J. repeat destruct J as [<-|J]; try destruct J; intros [=]; eexists; (split; [reflexivity|xml]). }
  { cbn. intros t u J K. repeat destruct J as [<-|J]; try destruct J; repeat destruct K as [<-|K]; try destruct K; cbn; congruence. }
  split; [nodup|]. split; [nodup|]. split; [|split; reflexivity].
  cbn. intros a [<-|[<-|[]]] Q; [|discriminate]. split; [|discriminate]. intros J. repeat destruct J as [[=]|J]; destruct J.
Qed.

(** [f] is a field or variant of a rendered type, but the first one with its name is another, so it
    is never filled: a required one makes every document fail. *)
Definition never_filled (types : list (list (field * string))) (f : field) : Prop :=
  exists l n g, In l types /\ In (f, n) l /\ serde_finds l n = Some g /\ g <> f.

(** Up to serde-xml-rs 0.7 an element with the name of an attribute is never filled. *)
Theorem C101_v7_attribute_refuted : let c := ComplexMeta [AttributeMeta (Tag 0 "id" false) false]
    (BGroup false 1 (Bounded 1) [once (PElement (Tag 0 "id" true))]) in
  declared c /\ own_prefixes ex_prefixes (attributes_of c ++ elements_of c) /\
  never_filled (rendered ex_prefixes XmlRs7 ex_options c) (FElement (Tag 0 "id" true)).
Proof.
  cbn zeta. split; [split|split].
  - cbn. intros t [J|J]; repeat destruct J as [<-|J]; try destruct J; xml.
  - split; [nodup|]. split; [nodup|]. cbn. auto.
  - split; cbn; [intros t J; repeat destruct J as [<-|J]; try destruct J; intros [=]; eexists; (split; [reflexivity|xml])|].
    intros t u J K. repeat destruct J as [<-|J]; try destruct J; repeat destruct K as [<-|K]; try destruct K; cbn; congruence.
  - exists [(FAttribute (Tag 0 "id" false), "id"); (FElement (Tag 0 "id" true), "id")], "id", (FAttribute (Tag 0 "id" false)).
    split; [left; reflexivity|]. split; [right; left; reflexivity|]. split; [reflexivity|discriminate].
Qed.
Print Assumptions C101_v7_attribute_refuted.

(** Up to 0.7 and with quick-xml, the second of two elements of different namespaces with the same
    local name is never filled; with quick-xml also the second of two such attributes. *)
Theorem C101_local_refuted :
  (let c := ComplexMeta [] (BGroup false 1 (Bounded 1) [once (PElement (Tag 0 "x" true)); once (PElement (Tag 1 "x" true))]) in
   declared c /\ own_prefixes ex_prefixes (attributes_of c ++ elements_of c) /\
   forall b, b = XmlRs7 \/ b = QuickXml -> never_filled (rendered ex_prefixes b ex_options c) (FElement (Tag 1 "x" true))) /\
  (let c := ComplexMeta [AttributeMeta (Tag 0 "lang" false) false; AttributeMeta (Tag 1 "lang" true) false] (BGroup false 1 (Bounded 1) []) in
   declared c /\ own_prefixes ex_prefixes (attributes_of c ++ elements_of c) /\
   never_filled (rendered ex_prefixes QuickXml ex_options c) (FAttribute (Tag 1 "lang" true))).
Proof.
  assert (A : own_prefixes ex_prefixes [Tag 0 "x" true; Tag 1 "x" true]).
  { split; cbn; [intros t J; repeat destruct J as [<-|J]; try destruct J; intros [=]; eexists; (split; [reflexivity|xml])|].
    intros t u J K. repeat destruct J as [<-|J]; try destruct J; repeat destruct K as [<-|K]; try destruct K; cbn; congruence. }
  assert (B : own_prefixes ex_prefixes [Tag 0 "lang" false; Tag 1 "lang" true]).
  { split; cbn; [intros t J; repeat destruct J as [<-|J]; try destruct J; intros [=]; eexists; (split; [reflexivity|xml])|].
    intros t u J K. repeat destruct J as [<-|J]; try destruct J; repeat destruct K as [<-|K]; try destruct K; cbn; congruence. }
  split; cbn zeta; (split; [split|split; [assumption|]]).
  - cbn. intros t [J|J]; repeat destruct J as [<-|J]; try destruct J; xml.
  - split; [nodup|]. split; [nodup|]. cbn. auto.
  - intros b H. exists [(FElement (Tag 0 "x" true), "x"); (FElement (Tag 1 "x" true), "x")], "x", (FElement (Tag 0 "x" true)).
    split; [destruct H as [->| ->]; left; reflexivity|]. split; [right; left; reflexivity|]. split; [reflexivity|discriminate].
  - cbn. intros t [J|J]; repeat destruct J as [<-|J]; try destruct J; xml.
  - split; [nodup|]. split; [nodup|]. cbn. auto.
  - exists [(FAttribute (Tag 0 "lang" false), "@lang"); (FAttribute (Tag 1 "lang" true), "@lang")], "@lang", (FAttribute (Tag 0 "lang" false)).
    split; [left; reflexivity|]. split; [right; left; reflexivity|]. split; [reflexivity|discriminate].
Qed.
Print Assumptions C101_local_refuted.

(** The texts before and after the elements of a mixed type (optimizer/simplify_mixed_types.rs
    81-105) all have the same name, for every renderer. *)
Theorem C101_texts_refuted : forall prefix_of b t,
  let c := ComplexMeta [] (BGroup false 1 (Bounded 1) [ElementMeta PText 0 (Bounded 1); once (PElement t); ElementMeta PText 0 (Bounded 1)]) in
  exists n m, rendered prefix_of b ex_options c = [[(FText, n); (FElement t, m); (FText, n)]].
Proof. intros. eexists. eexists. destruct b; reflexivity. Qed.
Print Assumptions C101_texts_refuted.

(** With serde-xml-rs 0.8 the content of a mixed type that is not flattened has an empty name, which
    no element, attribute or text has. *)
Theorem C101_content_refuted : forall prefix_of t,
  rendered prefix_of XmlRs8 ex_options (ComplexMeta [] (BChoice true 0 Unbounded [once (PElement t)])) =
    [[(FText, "#text"); (FContentElement "content", "")]; [(FElement t, tag_get prefix_of t)]] /\
  forall f, serde_name prefix_of XmlRs8 f = "" -> (exists n, f = FContentElement n) \/ exists t, f = FElement t /\ tg_name t = "".
Proof.
  intros. split; [reflexivity|]. intros [u|u| |n|[]|]; cbn; try discriminate; [|left; eauto].
  unfold tag_get. destruct (if tg_qualified u then _ else _) as [[|d p]|]; cbn; try discriminate. intros E. right. eauto.
Qed.
Print Assumptions C101_content_refuted.

(** With serde-xml-rs 0.8 a qualified element whose namespace has no prefix is taken for the
    unqualified one of this name. *)
Theorem C101_prefix_refuted :
  let c := ComplexMeta [] (BGroup false 1 (Bounded 1) [once (PElement (Tag 0 "x" false)); once (PElement (Tag 2 "x" true))]) in
  declared c /\ never_filled (rendered ex_prefixes XmlRs8 ex_options c) (FElement (Tag 2 "x" true)).
Proof.
  cbn zeta. split; [split|].
  - cbn. intros t [J|J]; repeat destruct J as [<-|J]; try destruct J; xml.
  - split; [nodup|]. split; [nodup|]. cbn. auto.
  - exists [(FElement (Tag 0 "x" false), "x"); (FElement (Tag 2 "x" true), "x")], "x", (FElement (Tag 0 "x" false)).
    split; [left; reflexivity|]. split; [right; left; reflexivity|]. split; [reflexivity|discriminate].
Qed.
Print Assumptions C101_prefix_refuted.
