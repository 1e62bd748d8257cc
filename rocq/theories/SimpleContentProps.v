(** C94: complex types with simple content. *)
From Coq Require Import ZArith String.
From Verif Require Import SimpleModel SimpleSpec SimpleInst SimpleTextProofs SimpleProofs SimpleProps.
From Verif Require Import SimpleContentModel SimpleContentSpec SimpleContentProofs.

(** The type that is generated for a complex type with simple content has a field for the text, and this is
    read as the content type says.
    Missing: restrictions of enumerations, simple types in restrictions that name other types than the content type of the base,
    also those of mixed types ([straight]); and what is missing in C81 ([plain]). *)
Theorem C94_content_partial (atom : Type) (parse : nat -> list N -> option atom) builtin_white (lt le : atom -> atom -> bool)
    (size chars : atom -> nat) (matches : list N -> list N -> bool) c d :
  (forall b s a, clear_text false s -> parse b s = Some a -> size a = chars a) ->
  straight c -> content_type c = Some d ->
  (forall b d', derives b c -> content_type b = Some d' -> plain parse builtin_white lt le chars matches d') ->
  exists t m, interpret_complex c = Ok t /\ text_field t = Some m /\ generate parse m = Ok tt /\ forall s, clear_text (has_digits d) s ->
    (forall x, denotes parse builtin_white lt le chars matches d s x ->
       exists v, read parse lt le size matches m s = Ok v /\ stands parse builtin_white lt le chars matches d v x) /\
    (forall v, read parse lt le size matches m s = Ok v ->
       exists x, stands parse builtin_white lt le chars matches d v x /\ denotes parse builtin_white lt le chars matches d s x).
Proof.
  intros H HS HC HP.
  destruct (C81_simple_partial atom parse builtin_white lt le size chars matches d H (HP c d (V_same _) HC)) as (m & fx & E & G & R).
  destruct (content_straight c d m fx HS) as (t & ET & _ & K); [|exact HC|exact E|].
  { intros b d' Hb Hd. destruct (C81_simple_partial atom parse builtin_white lt le size chars matches d' H (HP b d' Hb Hd)) as (m' & fx' & E' & _).
    exists m', fx'. exact E'. }
  exists t, m. split; [exact ET|]. split; [unfold text_field; rewrite K; reflexivity|]. split; [exact G|exact R].
Qed.
Print Assumptions C94_content_partial.

(** It has the attributes of its base and its own.  Missing: restrictions of mixed types. *)
Theorem C94_attributes_partial c t : no_mixed c -> interpret_complex c = Ok t -> k_attrs t = attributes c.
Proof. intros N H. apply (attrs_no_mixed c t N H). Qed.
Print Assumptions C94_attributes_partial.

(** The interpreter does not panic, if it does not for the simple types.  Missing: restrictions of mixed types. *)
Theorem C94_no_panic_partial c : no_mixed c -> (forall d, mentions c d -> interpret d <> Panic) -> interpret_complex c <> Panic.
Proof. intros N H E. pose proof (complex_sound c N H) as X. rewrite E in X. exact X. Qed.
Print Assumptions C94_no_panic_partial.

(** ** A case *)

(** Numbers with a unit; of these, percentages; a list of flags instead of mixed content. *)
Definition amount : cdef := CExtension (BSimple (SBuiltin 1 false)) [1].
Definition percentage : cdef :=
  CRestriction (BComplex (CExtension (BComplex amount) [2])) None
    [FMinInclusive (txt "0"); FMaxInclusive (txt "100"); FPattern (txt "..")] [3].
Definition flag_list : cdef := CRestriction (BComplex (CMixed [1])) (Some (SList (SBuiltin 1 false))) [FMaxLength 2] [].

Lemma list_plain : iplain (SRestriction true (SList (SBuiltin 1 false)) [FMaxLength 2]).
Proof.
  split; [exact I|]. split; [reflexivity|]. cbn [kind].
  split; [|split; [|split; [|split; [discriminate|split; [reflexivity|]]]]].
  - intros f [<-|[]]. right. reflexivity.
  - intros i j f g k Hi Hj _ _. destruct i as [|i]; [|destruct i; discriminate]. destruct j as [|j]; [reflexivity|destruct j; discriminate].
  - intros k _ s x _. exact I.
  - intros e [H|[]]. discriminate.
Qed.

Example C94_case_hypotheses : straight percentage /\ content_type percentage = Some percent /\ allowed percentage /\ no_mixed percentage /\
  (forall b d, derives b percentage -> content_type b = Some d -> iplain d) /\
  (forall d, mentions percentage d -> interpret d <> Panic) /\
  straight flag_list /\ allowed flag_list /\ (forall b d, derives b flag_list -> content_type b = Some d -> iplain d).
Proof.
  split; [repeat split|]. split; [reflexivity|]. split; [repeat split; discriminate|]. split; [exact I|]. split.
  { intros b d H E. inversion H as [|c a H'|c i fs a H']; subst; [injection E as <-; apply percent_plain|].
    inversion H' as [|c a H2|c i fs a H2]; subst; [injection E as <-; exact I|].
    inversion H2; subst. injection E as <-. exact I. }
  split. { intros d [H|[]]. cbn in H. subst d. discriminate. }
  split; [split; [exact I|]; split; [exists [1]; reflexivity|exact I]|].
  split; [split; [exact I|exists [1]; reflexivity]|].
  intros b d H E. inversion H as [|c a H'|c i fs a H']; subst; [injection E as <-; apply list_plain|]. inversion H'; subst. discriminate E.
Qed.

Example C94_case_read : exists t m t' m', interpret_complex percentage = Ok t /\ text_field t = Some m /\ k_attrs t = [1; 2; 3] /\
  iread m (txt "42") = Ok (VAtom (INum 42)) /\ iread m (txt "500") <> Ok (VAtom (INum 500)) /\ iread m (txt "7") = Err RPattern /\
  interpret_complex flag_list = Ok t' /\ text_field t' = Some m' /\
  iread m' (txt "1 0") = Ok (VList [VAtom (INum 1); VAtom (INum 0)]) /\ iread m' (txt "1 0 1") = Err RMaxLength.
Proof.
  do 4 eexists. do 2 (split; [reflexivity|]). split; [reflexivity|]. split; [vm_compute; reflexivity|].
  split; [vm_compute; discriminate|]. split; [vm_compute; reflexivity|]. do 2 (split; [reflexivity|]). split; vm_compute; reflexivity.
Qed.

(** ** Where the code is wrong *)

Definition letters (l : list string) : list facet := map (fun s => FEnumeration (txt s)) l.
Lemma letter_base e : idenotes (SBuiltin 0 false) e (XAtom (IText e)).
Proof. exists e, (IText e). repeat split. Qed.
Lemma base_letter e x : idenotes (SBuiltin 0 false) e x -> x = XAtom (IText e).
Proof. intros (s & a & -> & E & ->). injection E as <-. reflexivity. Qed.

(** A restriction of an enumeration admits all values of its base. *)
Theorem C94_enumeration_refuted : exists c d t m s v, allowed c /\ content_type c = Some d /\ interpret_complex c = Ok t /\ text_field t = Some m /\
  igenerate m = Ok tt /\ clear_text (has_digits d) s /\ iread m s = Ok v /\ forall x, ~ idenotes d s x.
Proof.
  exists (CRestriction (BComplex (CExtension (BSimple (SRestriction false (SBuiltin 0 false) (letters ["a"; "b"]%string))) [])) None (letters ["a"%string]) []).
  eexists. do 2 eexists. exists (txt "b"). eexists.
  split; [repeat split; discriminate|]. split; [reflexivity|]. split; [reflexivity|]. split; [reflexivity|]. split; [reflexivity|].
  split; [apply clear_one; [repeat constructor|reflexivity]|]. split; [vm_compute; reflexivity|].
  intros x (s & -> & (s1 & -> & Hb & _) & _ & _ & H). apply base_letter in Hb. subst x.
  destruct (H (ex_intro _ _ (or_introl eq_refl))) as (e & [E|[]] & (s3 & -> & Hb & _)). injection E as <-.
  apply base_letter in Hb. discriminate Hb.
Qed.
Print Assumptions C94_enumeration_refuted.

(** The facets of a named type that a simple type inside of the restriction restricts are lost. *)
Theorem C94_inline_refuted : exists c d t m s v, allowed c /\ content_type c = Some d /\ interpret_complex c = Ok t /\ text_field t = Some m /\
  igenerate m = Ok tt /\ clear_text (has_digits d) s /\ iread m s = Ok v /\ forall x, ~ idenotes d s x.
Proof.
  exists (CRestriction (BComplex (CExtension (BSimple (SBuiltin 0 false)) []))
            (Some (SRestriction false (SRestriction false (SBuiltin 0 false) [FPattern (txt "a.")]) [FMaxLength 2])) [] []).
  eexists. do 2 eexists. exists (txt "bb"). eexists.
  split; [split; [exact I|apply D_step, D_step, D_same]|]. split; [reflexivity|]. split; [reflexivity|]. split; [reflexivity|]. split; [reflexivity|].
  split; [apply clear_one; [repeat constructor|reflexivity]|]. split; [vm_compute; reflexivity|].
  intros x (s & -> & (s1 & -> & (s2 & -> & _ & _ & H & _) & _) & _). destruct (H (ex_intro _ _ (or_introl eq_refl))) as (p & [E|[]] & M).
  injection E as <-. discriminate M.
Qed.
Print Assumptions C94_inline_refuted.

(** The content of a union is not restricted to one of its members. *)
Theorem C94_member_refuted : exists c d t m s v, allowed c /\ content_type c = Some d /\ interpret_complex c = Ok t /\ text_field t = Some m /\
  igenerate m = Ok tt /\ clear_text (has_digits d) s /\ iread m s = Ok v /\ forall x, ~ idenotes d s x.
Proof.
  exists (CRestriction (BComplex (CExtension (BSimple (SUnion [SBuiltin 1 false; SBuiltin 0 false])) []))
            (Some (SRestriction false (SBuiltin 1 false) [])) [] []).
  eexists. do 2 eexists. exists (txt "x"). eexists.
  split; [split; [exact I|refine (D_member _ _ _ _ _ eq_refl _); left; reflexivity]|]. split; [reflexivity|]. split; [reflexivity|]. split; [reflexivity|]. split; [reflexivity|].
  assert (HC : clear_text false (txt "x")) by (apply clear_one; [repeat constructor|reflexivity]).
  split; [exact HC|]. split; [vm_compute; reflexivity|].
  intros x H. apply (denotes_step _ _ _ _ _ _ true _ _ _ _ false HC) in H as (H & _).
  apply (denotes_step _ _ _ _ _ _ false _ _ _ _ false HC) in H as (H & _).
  apply (atom_text iparse iwhite ilt ile ichars imatches 1 _ x HC) in H as (a & _ & E). vm_compute in E. discriminate E.
Qed.
Print Assumptions C94_member_refuted.

(** A simple type that restricts mixed content by a facet is not interpreted, *)
Theorem C94_mixed_panic_refuted : exists c d, allowed c /\ content_type c = Some d /\ interpret_complex c = Panic /\
  (forall d', mentions c d' -> interpret d' <> Panic) /\ exists s x, idenotes d s x.
Proof.
  exists (CRestriction (BComplex (CMixed [])) (Some (SRestriction false (SBuiltin 0 false) [FMaxLength 1])) [] []). eexists.
  split; [split; [exact I|exists []; reflexivity]|]. split; [reflexivity|]. split; [reflexivity|].
  split; [intros d' [[]| ->]; discriminate|]. exists (txt "a"), (XAtom (IText (txt "a"))).
  exists (txt "a"). split; [reflexivity|]. split.
  - exists (txt "a"). split; [reflexivity|]. split; [apply letter_base|].
    split; [intros f [<-|[]] k E; injection E as <-; apply le_n|]. split; intros (p & [H|[]]); discriminate.
  - split; [intros f []|]. split; intros (p & []).
Qed.
Print Assumptions C94_mixed_panic_refuted.

(** and without facets, the type has no field for the text. *)
Theorem C94_mixed_content_refuted : exists c d t, allowed c /\ content_type c = Some d /\ interpret_complex c = Ok t /\ text_field t = None /\
  exists s x, idenotes d s x.
Proof.
  exists (CRestriction (BComplex (CMixed [])) (Some (SRestriction false (SBuiltin 0 false) [])) [] []). do 2 eexists.
  split; [split; [exact I|exists []; reflexivity]|]. split; [reflexivity|]. split; [reflexivity|]. split; [reflexivity|].
  exists (txt "a"), (XAtom (IText (txt "a"))). exists (txt "a"). split; [reflexivity|]. split.
  - exists (txt "a"). split; [reflexivity|]. split; [apply letter_base|]. split; [intros f []|]. split; intros (p & []).
  - split; [intros f []|]. split; intros (p & []).
Qed.
Print Assumptions C94_mixed_content_refuted.

(** The attributes of a mixed base are lost. *)
Theorem C94_mixed_attributes_refuted : exists c t, allowed c /\ interpret_complex c = Ok t /\ text_field t <> None /\
  exists a, In a (attributes c) /\ ~ In a (k_attrs t).
Proof.
  exists flag_list. eexists. split; [split; [exact I|exists [1]; reflexivity]|]. split; [reflexivity|]. split; [discriminate|].
  exists 1. split; [left; reflexivity|intros []].
Qed.
Print Assumptions C94_mixed_attributes_refuted.
