(** Theorems about the attributes of generated types (C79, C80). *)
From Verif Require Import AttrModel AttrSpec AttrProofs AttrWriteProofs.
Local Open Scope string_scope.

(** Attributes that an element may have are read, into the values they stand for. *)
Theorem C79_valid_partial : forall {V} parse charref utf8_ok fd sup (l : list (sdecl V)) r attrs slots,
  plain_declarations fd l -> clear_document fd l r attrs ->
  valid parse charref utf8_ok fd sup l r attrs slots ->
  read_attributes parse charref utf8_ok fd sup l r attrs = Ok slots.
Proof. intros. apply read_valid; assumption. Qed.
Print Assumptions C79_valid_partial.

(** Nothing else is read. *)
Theorem C79_only_valid_partial : forall {V} parse charref utf8_ok fd sup (l : list (sdecl V)) r attrs slots,
  plain_declarations fd l -> clear_document fd l r attrs ->
  NoDup (map fst attrs) \/ filter (has_field sup) l <> [] \/ (forall w, ~ In (SWildcard w) l) ->
  read_attributes parse charref utf8_ok fd sup l r attrs = Ok slots ->
  valid parse charref utf8_ok fd sup l r attrs slots.
Proof. intros. apply read_only; assumption. Qed.
Print Assumptions C79_only_valid_partial.

(** For all declarations and documents: there is no panic; *)
Theorem C79_no_panic : forall {V} parse charref utf8_ok fd sup (l : list (sdecl V)) r attrs,
  read_attributes parse charref utf8_ok fd sup l r attrs <> Panic.
Proof. intros. apply read_no_panic. Qed.
Print Assumptions C79_no_panic.

(** every value comes from an attribute of that local name, or is the default; *)
Theorem C79_sources : forall {V} parse charref utf8_ok fd sup (l : list (sdecl V)) r attrs slots i d s,
  read_attributes parse charref utf8_ok fd sup l r attrs = Ok slots ->
  nth_error (filter (has_field sup) l) i = Some d -> nth_error slots i = Some s ->
  match d, s with
  | SAttribute a, FValue o =>
      (exists x v, In x attrs /\ ~ declares_namespace (fst x) /\ key_local (fst x) = sa_name a /\
         has_text parse charref utf8_ok r a x v /\ o = Some v) \/
      (o = sa_default a /\ (sa_default a = None -> sa_use a <> URequired))
  | SWildcard _, FAny m => forall x, In x m -> In x attrs /\ ~ declares_namespace (fst x)
  | _, _ => False
  end.
Proof. intros. eapply sources; eassumption. Qed.
Print Assumptions C79_sources.

(** and every attribute becomes a value of a field, or is kept, or is allowed and dropped. *)
Theorem C79_accounted : forall {V} parse charref utf8_ok fd sup (l : list (sdecl V)) r attrs slots x,
  read_attributes parse charref utf8_ok fd sup l r attrs = Ok slots ->
  In x attrs -> ~ declares_namespace (fst x) ->
  (exists i a v, nth_error (filter (has_field sup) l) i = Some (SAttribute a) /\ key_local (fst x) = sa_name a /\
     has_text parse charref utf8_ok r a x v /\ nth_error slots i = Some (FValue (Some v))) \/
  (exists i w m, nth_error (filter (has_field sup) l) i = Some (SWildcard w) /\ nth_error slots i = Some (FAny m) /\ In x m) \/
  (sup = false /\ exists w, In (SWildcard w) l) \/
  In (key_local (fst x)) ["schemaLocation"; "noNamespaceSchemaLocation"; "type"; "nil"].
Proof. intros. eapply accounted; eassumption. Qed.
Print Assumptions C79_accounted.

(** ** A case *)

(** Types: 0 are texts, 1 lists whose empty list has no text. *)
Definition text_parse (ty : nat) (r : resolver) (t : bytes) : option bytes := Some t.
Definition text_render (ty : nat) (v : bytes) : option (option bytes) :=
  match ty, v with 1, EmptyString => Some None | _, _ => Some (Some v) end.
Definition no_charref (s : bytes) : option bytes := None.
Definition any_utf8 (s : bytes) : bool := true.

Definition LIB : bytes := "urn:lib".
Definition lib_attr (name : bytes) (form : option bool) (u : use) (d : option bytes) : sattr bytes :=
  SAttr name (Some LIB) (Some "l") false form u d None 0.
Definition lib_decls : list (sdecl bytes) :=
  [SAttribute (lib_attr "id" None URequired None); SAttribute (lib_attr "lang" (Some true) UOptional (Some "en"));
   SAttribute (lib_attr "old" None UProhibited None); SAttribute (lib_attr "note" None UOptional None); SWildcard WAny].
(** In the scope of [xmlns:l="urn:lib" xmlns:z="urn:z"]. *)
Definition lib_scope : resolver := Resolver 1 [Binding 1 (Some "l") LIB; Binding 1 (Some "z") "urn:z"].
Definition lib_attrs : list attr :=
  [("xmlns:l", LIB); ("l:lang", "de"); ("z:lang", "fr"); ("xmlns:z", "urn:z"); ("id", "a&amp;b"); ("old", "1")].

Lemma not_xmlns k : is_xmlns k = false -> ~ declares_namespace k.
Proof. apply is_xmlns_no. Qed.

Lemma lib_plain : plain_declarations false lib_decls.
Proof.
  split; [|split].
  - intros i j a b N E F Ua Ub.
    destruct i as [|[|[|[|[|i]]]]]; cbn in E; try discriminate; try (destruct i; discriminate); injection E as <-;
    destruct j as [|[|[|[|[|j]]]]]; cbn in F; try discriminate; try (destruct j; discriminate); injection F as <-;
    try (exfalso; apply N; reflexivity); try (exfalso; apply Ua; reflexivity); try (exfalso; apply Ub; reflexivity); discriminate.
  - intros a [I U]. cbn in I. destruct I as [I|[I|[I|[I|[I|[]]]]]]; try discriminate; injection I as <-; split; reflexivity || discriminate.
  - intros i j w u E F.
    destruct i as [|[|[|[|[|i]]]]]; cbn in E; try discriminate; try (destruct i; discriminate). injection E as <-.
    destruct j as [|[|[|[|[|j]]]]]; cbn in F; try discriminate; try (destruct j; discriminate). injection F as <-. auto.
Qed.

Lemma lib_clear : clear_document false lib_decls lib_scope lib_attrs.
Proof.
  intros x I Nx. cbn in I.
  destruct I as [<-|[<-|[<-|[<-|[<-|[<-|[]]]]]]]; cbn [fst] in *;
    try (exfalso; apply Nx; apply is_xmlns_spec; reflexivity).
  - split; [eexists; exists LIB; split; reflexivity|]. intros a [I U]. cbn in I.
    destruct I as [I|[I|[I|[I|[I|[]]]]]]; try discriminate; injection I as <-; cbn; try discriminate.
    intros _. left. exists LIB. split; reflexivity.
  - split; [eexists; exists "urn:z"; split; reflexivity|]. intros a [I U]. cbn in I.
    destruct I as [I|[I|[I|[I|[I|[]]]]]]; try discriminate; injection I as <-; cbn; try discriminate.
    intros _. right. split; [discriminate|]. intros (u & E & F). cbn in E. injection E as <-. discriminate.
  - split; [eexists; reflexivity|]. intros a [I U]. cbn in I.
    destruct I as [I|[I|[I|[I|[I|[]]]]]]; try discriminate; injection I as <-; cbn; try discriminate.
    reflexivity.
  - split; [eexists; reflexivity|]. intros a [I U]. cbn in I.
    destruct I as [I|[I|[I|[I|[I|[]]]]]]; try discriminate; injection I as <-; cbn; try discriminate. exfalso; apply U; reflexivity.
Qed.

Definition lib_slots : list (slot bytes) :=
  [FValue (Some "a&b"); FValue (Some "de"); FValue None; FAny [("z:lang", "fr"); ("old", "1")]].

Example C79_case :
  read_attributes text_parse no_charref any_utf8 false true lib_decls lib_scope lib_attrs = Ok lib_slots /\
  valid text_parse no_charref any_utf8 false true lib_decls lib_scope lib_attrs lib_slots.
Proof.
  assert (E : read_attributes text_parse no_charref any_utf8 false true lib_decls lib_scope lib_attrs = Ok lib_slots) by reflexivity.
  split; [exact E|]. apply (C79_only_valid_partial _ _ _ _ _ _ _ _ _ lib_plain lib_clear); [right; left; discriminate|exact E].
Qed.

(** A missing, a repeated and an unknown attribute. *)
Example C79_errors :
  read_attributes text_parse no_charref any_utf8 false true lib_decls lib_scope [("l:lang", "de")] = Err (KMissingAttribute "id") /\
  read_attributes text_parse no_charref any_utf8 false true lib_decls lib_scope [("id", "1"); ("id", "2")] = Err (KAttr "duplicate") /\
  read_attributes text_parse no_charref any_utf8 false false [SAttribute (lib_attr "id" None URequired None)] lib_scope
    [("id", "1"); ("ID", "2")] = Err (KUnexpectedAttribute "ID").
Proof. repeat split. Qed.

(** ** Where the property is false *)

Definition one (a : sattr bytes) : list (sdecl bytes) := [SAttribute a].
Definition id_attr : sattr bytes := lib_attr "id" None URequired None.

Lemma selected {V} parse charref utf8_ok fd sup (a : sattr V) r k t v :
  sa_use a <> UProhibited -> sa_fixed a = None ->
  carries fd r a (k, t) -> has_text parse charref utf8_ok r a (k, t) v ->
  valid parse charref utf8_ok fd sup [SAttribute a] r [(k, t)] [FValue (Some v)].
Proof.
  intros U Fx C H. split; [constructor; [intros []|constructor]|]. split.
  - assert (Fv : field_value parse charref utf8_ok fd [SAttribute a] r [(k, t)] (SAttribute a) (FValue (Some v))).
    { left. exists (k, t), v. split; [left; reflexivity|]. split; [exact C|]. split; [intros y [<-|[]] _; reflexivity|].
      split; [exact H|]. split; [rewrite Fx; discriminate|reflexivity]. }
    cbn [filter has_field]. destruct (sa_use a); [| |congruence]; (constructor; [exact Fv|constructor]).
  - intros x [<-|[]] [_ Un]. exfalso. apply (Un a); [split; [left; reflexivity|exact U]|exact C].
Qed.

(** [<p:e xmlns:p="urn:lib" xmlns="urn:other" id="1"/>]: the default namespace is not that of
    an attribute without prefix. *)
Definition other_scope : resolver := Resolver 1 [Binding 1 (Some "p") LIB; Binding 1 None "urn:other"].
Example C79_default_namespace :
  valid text_parse no_charref any_utf8 false true (one id_attr) other_scope [("id", "1")] [FValue (Some "1")] /\
  read_attributes text_parse no_charref any_utf8 false true (one id_attr) other_scope [("id", "1")] = Ok [FValue (Some "1")].
Proof.
  split; [|reflexivity]. apply selected; [discriminate|reflexivity| |].
  - split; [apply not_xmlns; reflexivity|reflexivity].
  - split; [reflexivity|]. exists "1". auto.
Qed.

(** Two attributes [l:x] and [x] of a type: both are taken for the first. *)
Definition two_x : list (sdecl bytes) :=
  [SAttribute (lib_attr "x" (Some true) UOptional None); SAttribute (lib_attr "x" (Some false) UOptional None)].
Theorem C79_same_local_name_refuted : exists slots,
  valid text_parse no_charref any_utf8 false true two_x lib_scope [("x", "1"); ("l:x", "2")] slots /\
  read_attributes text_parse no_charref any_utf8 false true two_x lib_scope [("x", "1"); ("l:x", "2")] = Err (KDuplicateAttribute "x").
Proof.
  exists [FValue (Some "2"); FValue (Some "1")]. split; [|reflexivity].
  assert (C1 : carries false lib_scope (lib_attr "x" (Some true) UOptional None) ("l:x", "2")).
  { split; [apply not_xmlns; reflexivity|]. exists LIB. split; reflexivity. }
  assert (C2 : carries false lib_scope (lib_attr "x" (Some false) UOptional None) ("x", "1")).
  { split; [apply not_xmlns; reflexivity|]. reflexivity. }
  split; [|split].
  - constructor; [intros [E|[]]; discriminate|]. constructor; [intros []|constructor].
  - constructor; [|constructor; [|constructor]]; cbn; left.
    + exists ("l:x", "2"), "2". split; [right; left; reflexivity|]. split; [exact C1|]. split.
      * intros y [<-|[<-|[]]] [_ H]; [vm_compute in H; discriminate H|reflexivity].
      * split; [split; [reflexivity|exists "2"; auto]|]. split; [discriminate|reflexivity].
    + exists ("x", "1"), "1". split; [left; reflexivity|]. split; [exact C2|]. split.
      * intros y [<-|[<-|[]]] [_ H]; [reflexivity|]. destruct H as (u & _ & H). discriminate H.
      * split; [split; [reflexivity|exists "1"; auto]|]. split; [discriminate|reflexivity].
  - intros x [<-|[<-|[]]] [_ Un]; exfalso.
    + apply (Un (lib_attr "x" (Some false) UOptional None)); [split; [right; left; reflexivity|discriminate]|exact C2].
    + apply (Un (lib_attr "x" (Some true) UOptional None)); [split; [left; reflexivity|discriminate]|exact C1].
Qed.
Print Assumptions C79_same_local_name_refuted.

(** A qualified attribute is read from one without prefix, an unqualified one from one
    with a prefix. *)
Lemma never_valid {V} parse charref utf8_ok fd sup (a : sattr V) r k t slots :
  sa_use a <> UProhibited -> ~ declares_namespace k -> ~ carries fd r a (k, t) -> ~ instance_attribute r k ->
  ~ valid parse charref utf8_ok fd sup [SAttribute a] r [(k, t)] slots.
Proof.
  intros U Nk C In' (_ & _ & H).
  assert (Un : undeclared fd [SAttribute a] r (k, t)).
  { split; [exact Nk|]. intros b [[E|[]] _] Cb. injection E as <-. exact (C Cb). }
  destruct (H (k, t) (or_introl eq_refl) Un) as [X|(w & n & [E|[]] & _)]; [exact (In' X)|discriminate].
Qed.
Theorem C79_form_refuted :
  (forall slots, ~ valid text_parse no_charref any_utf8 false true (one (lib_attr "x" (Some true) URequired None)) lib_scope [("x", "1")] slots) /\
  read_attributes text_parse no_charref any_utf8 false true (one (lib_attr "x" (Some true) URequired None)) lib_scope [("x", "1")]
    = Ok [FValue (Some "1")] /\
  (forall slots, ~ valid text_parse no_charref any_utf8 false true (one (lib_attr "x" (Some false) URequired None)) lib_scope [("l:x", "1")] slots) /\
  read_attributes text_parse no_charref any_utf8 false true (one (lib_attr "x" (Some false) URequired None)) lib_scope [("l:x", "1")]
    = Ok [FValue (Some "1")].
Proof.
  split; [|split; [reflexivity|split; [|reflexivity]]]; intros slots; apply never_valid; try discriminate; try (apply not_xmlns; reflexivity).
  - intros [_ H]. vm_compute in H. discriminate H.
  - intros (u & _ & H). discriminate H.
  - intros [_ (u & _ & H)]. discriminate H.
  - intros (u & I & (w & E & F)). cbn in E. injection E as <-. discriminate F.
Qed.
Print Assumptions C79_form_refuted.

(** The value of a fixed attribute and the namespaces of a wildcard are not looked at. *)
Definition fixed_attr : sattr bytes := SAttr "v" (Some LIB) (Some "l") false None UOptional None (Some "1.0") 0.
Theorem C79_fixed_refuted :
  (forall slots, ~ valid text_parse no_charref any_utf8 false true (one fixed_attr) lib_scope [("v", "2.0")] slots) /\
  read_attributes text_parse no_charref any_utf8 false true (one fixed_attr) lib_scope [("v", "2.0")] = Ok [FValue (Some "2.0")] /\
  valid text_parse no_charref any_utf8 false true (one fixed_attr) lib_scope [] [FValue (Some "1.0")] /\
  read_attributes text_parse no_charref any_utf8 false true (one fixed_attr) lib_scope [] = Ok [FValue None].
Proof.
  split; [|split; [reflexivity|split; [|reflexivity]]].
  - intros slots (_ & F & _). cbn in F. inversion F as [|d s fs ss F1 F2]; subst. destruct s as [o|m]; [|exact F1].
    cbn in F1. destruct F1 as [(x & v & [<-|[]] & _ & _ & (_ & t & E & P) & Fx & _)|(H & _)].
    + cbn in E. injection E as <-. injection P as <-. specialize (Fx _ eq_refl). discriminate.
    + apply (H ("v", "2.0") (or_introl eq_refl)). split; [apply not_xmlns; reflexivity|reflexivity].
  - split; [constructor|]. split; [|intros x []]. constructor; [|constructor]. cbn. right.
    split; [intros x []|]. split; [discriminate|reflexivity].
Qed.
Print Assumptions C79_fixed_refuted.

Theorem C79_wildcard_refuted :
  (forall slots, ~ valid text_parse no_charref any_utf8 false true [SWildcard (WOther (Some LIB))] lib_scope [("l:a", "1")] slots) /\
  read_attributes text_parse no_charref any_utf8 false true [SWildcard (WOther (Some LIB))] lib_scope [("l:a", "1")] = Ok [FAny [("l:a", "1")]].
Proof.
  split; [|reflexivity]. intros slots (_ & _ & H).
  assert (Un : undeclared (V := bytes) false [SWildcard (WOther (Some LIB))] lib_scope ("l:a", "1")).
  { split; [apply not_xmlns; reflexivity|]. intros b [[E|[]] _]. discriminate. }
  destruct (H _ (or_introl eq_refl) Un) as [(u & I & (w & E & F))|(w & n & [E|[]] & (u & Eu & ->) & A)].
  - cbn in E. injection E as <-. discriminate F.
  - injection E as <-. cbn in Eu. injection Eu as <-. cbn in A. destruct A as [_ A]. apply A. reflexivity.
Qed.
Print Assumptions C79_wildcard_refuted.

(** ** C80: writing *)

(** The attributes that are written are those of the value, for the declarations in the
    scope in which they are read; so they are read again. *)
Theorem C80_valid_partial : forall {V} render parse charref utf8_ok fd sup (l : list (sdecl V)) r xm slots out,
  plain_declarations fd l ->
  Forall2 holds (filter (has_field sup) l) slots ->
  Forall2 (reads_back parse utf8_ok fd render l r) (filter (has_field sup) l) slots ->
  write_attributes render fd sup l slots = Ok out ->
  (forall x, In x xm -> declares_namespace (fst x)) -> NoDup (map fst xm) ->
  clear_document fd l r (xm ++ out) ->
  valid parse charref utf8_ok fd sup l r (xm ++ out) slots.
Proof. intros. eapply written_valid; eassumption. Qed.
Print Assumptions C80_valid_partial.

Theorem C80_read_again_partial : forall {V} render parse charref utf8_ok fd sup (l : list (sdecl V)) r xm slots out,
  plain_declarations fd l ->
  Forall2 holds (filter (has_field sup) l) slots ->
  Forall2 (reads_back parse utf8_ok fd render l r) (filter (has_field sup) l) slots ->
  write_attributes render fd sup l slots = Ok out ->
  (forall x, In x xm -> declares_namespace (fst x)) -> NoDup (map fst xm) ->
  clear_document fd l r (xm ++ out) ->
  read_attributes parse charref utf8_ok fd sup l r (xm ++ out) = Ok slots.
Proof. intros. apply read_valid; [assumption|assumption|]. eapply written_valid; eassumption. Qed.
Print Assumptions C80_read_again_partial.

(** Values of the Rust types are written without panic. *)
Theorem C80_no_panic : forall {V} render fd sup (l : list (sdecl V)) slots,
  Forall2 holds (filter (has_field sup) l) slots -> write_attributes render fd sup l slots <> Panic.
Proof. intros. apply write_no_panic; assumption. Qed.
Print Assumptions C80_no_panic.

Definition lib_written : list attr := [("id", "a&amp;b"); ("l:lang", "de"); ("z:lang", "fr"); ("old", "1")].
Example C80_case :
  write_attributes text_render false true lib_decls lib_slots = Ok lib_written /\
  Forall2 holds (filter (has_field true) lib_decls) lib_slots /\
  Forall2 (reads_back text_parse any_utf8 false text_render lib_decls lib_scope) (filter (has_field true) lib_decls) lib_slots /\
  clear_document false lib_decls lib_scope ([("xmlns:l", LIB); ("xmlns:z", "urn:z")] ++ lib_written).
Proof.
  split; [reflexivity|]. split; [|split].
  - repeat constructor; cbn; try (intros [E|[]]; discriminate); try (intros []).
  - constructor; [|constructor; [|constructor; [|constructor; [|constructor]]]]; cbn.
    + split; [split; [apply not_xmlns; reflexivity|reflexivity]|]. exists "a&b". repeat split.
    + split; [split; [apply not_xmlns; reflexivity|]|]; [exists LIB; split; reflexivity|]. exists "de". repeat split.
    + exact I.
    + intros x I. destruct (proj2 C79_case) as (_ & F & _).
      inversion F as [|? ? ? ? _ F1]; subst. inversion F1 as [|? ? ? ? _ F2]; subst.
      inversion F2 as [|? ? ? ? _ F3]; subst. inversion F3 as [|? ? ? ? Sx _]; subst. cbn in Sx.
      clear - Sx I. revert x I. assert (G : forall (P : attr -> Prop) l m, selects P l m -> forall x, In x m -> P x).
      { induction 1 as [|y l m Py S IH|y l m Py S IH]; [intros x []|intros x [<-|J]; auto|exact IH]. }
      exact (G _ _ _ Sx).
  - pose proof lib_clear as C. intros x I Nx.
    cbn in I. destruct I as [<-|[<-|[<-|[<-|[<-|[<-|[]]]]]]];
      try (exfalso; apply Nx; apply is_xmlns_spec; reflexivity); apply C; auto; cbn; auto 10.
Qed.
Example C80_case_read :
  read_attributes text_parse no_charref any_utf8 false true lib_decls lib_scope ([("xmlns:l", LIB); ("xmlns:z", "urn:z")] ++ lib_written) = Ok lib_slots.
Proof.
  destruct C80_case as (W & H & B & C).
  eapply (C80_read_again_partial text_render); [apply lib_plain|exact H|exact B|exact W| | |exact C].
  - intros x [<-|[<-|[]]]; apply is_xmlns_spec; reflexivity.
  - constructor; [intros [E|[]]; discriminate|]. constructor; [intros []|constructor].
Qed.

(** An empty list is not written: a required one is missed, another becomes the default. *)
Definition list_attr (u : use) (d : option bytes) : sattr bytes := SAttr "refs" (Some LIB) (Some "l") false None u d None 1.
Theorem C80_empty_list_refuted :
  Forall2 holds (filter (has_field true) (one (list_attr URequired None))) [FValue (Some "")] /\
  write_attributes text_render false true (one (list_attr URequired None)) [FValue (Some "")] = Ok [] /\
  read_attributes text_parse no_charref any_utf8 false true (one (list_attr URequired None)) lib_scope [] = Err (KMissingAttribute "refs") /\
  Forall2 holds (filter (has_field true) (one (list_attr UOptional (Some "a b")))) [FValue (Some "")] /\
  write_attributes text_render false true (one (list_attr UOptional (Some "a b"))) [FValue (Some "")] = Ok [] /\
  read_attributes text_parse no_charref any_utf8 false true (one (list_attr UOptional (Some "a b"))) lib_scope [] = Ok [FValue (Some "a b")].
Proof. split; [constructor; [exact I|constructor]|]. split; [reflexivity|]. split; [reflexivity|]. split; [constructor; [exact I|constructor]|]. split; reflexivity. Qed.
Print Assumptions C80_empty_list_refuted.

(** [<xs:attribute ref="xml:lang"/>] in a schema without [attributeFormDefault="qualified"]
    is written as [lang], which is not the name of the attribute in any scope. *)
Definition xml_lang : sattr bytes := SAttr "lang" (Some XML_NS) (Some "xml") true None UOptional None None 0.
Theorem C80_reference_refuted :
  read_attributes text_parse no_charref any_utf8 false true (one xml_lang) lib_scope [("xml:lang", "en")] = Ok [FValue (Some "en")] /\
  write_attributes text_render false true (one xml_lang) [FValue (Some "en")] = Ok [("lang", "en")] /\
  forall r slots, ~ valid text_parse no_charref any_utf8 false true (one xml_lang) r [("lang", "en")] slots.
Proof.
  split; [reflexivity|]. split; [reflexivity|]. intros r slots. apply never_valid; [discriminate|apply not_xmlns; reflexivity| |].
  - intros [_ H]. vm_compute in H. discriminate H.
  - intros (u & _ & H). discriminate H.
Qed.
Print Assumptions C80_reference_refuted.
