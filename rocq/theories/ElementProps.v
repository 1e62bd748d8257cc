(** C05-C07: [AnyElement]. *)
From Verif Require Import SerHelperModel SerHelperSpec SerHelperProofs.
From Verif Require Import DeModel DeSpec DeProofs ElementModel ElementSpec ElementProofs.
Local Open Scope string_scope.

(** C05.  Serialising any element tree, with any helper reached by a history of
    calls, ends after finitely many steps.  If all names are valid UTF-8 the
    events are those of one well-nested element with the requested name, and the
    helper is exactly as before; otherwise the result is a UTF-8 error. *)
Theorem C05_well_nested : forall utf8_ok hist name e,
  let h := hrun helper_default hist in
  exists N, forall fuel, N < fuel ->
    match tag_name utf8_ok name e, kids_ok utf8_ok e with
    | Ok n, true => exists t, root_name t = Some n /\ proper t = true /\
        element_ser_run utf8_ok fuel name e h = SRDone (flatten t) h
    | _, _ => exists evs, element_ser_run utf8_ok fuel name e h = SRErr evs KUtf8
    end.
Proof. intros. apply element_ser_total, lv_run, lv_default. Qed.
Print Assumptions C05_well_nested.

(** ... and if the maps of the tree have no duplicate keys, no tag written has a
    duplicate attribute, and every declaration is legal. *)
Theorem C05_tags_well_formed : forall utf8_ok hist name n e,
  let h := hrun helper_default hist in
  good_element utf8_ok e -> tag_name utf8_ok name e = Ok n ->
  exists N, forall fuel, N < fuel -> exists evs,
    element_ser_run utf8_ok fuel name e h = SRDone evs h /\
    forall x a, In (EStart x a) evs \/ In (EEmpty x a) evs -> good_tag a.
Proof. intros. eapply element_ser_tags; [apply lv_run, lv_default|eassumption|eassumption]. Qed.
Print Assumptions C05_tags_well_formed.

Definition ok_name (_ : bytes) : bool := true.
Definition sample : element :=
  Element "p:a" [("xmlns:p", "urn:p"); ("x", "1")] [("p", "urn:p")]
    [VText "t"; VElem (Element "b" [("xmlns", "urn:q")] [("p", "urn:p"); ("", "urn:q")] []); VComment "c";
     VElem (Element "d" [] [("p", "urn:p")] [VCData "z"])].

Ltac nd := repeat (apply NoDup_cons; [let HH := fresh in intros HH; cbn in HH; intuition discriminate|]); apply NoDup_nil.
Ltac fa := repeat (apply Forall_cons; [cbn; repeat split; try discriminate; try exact I|]); apply Forall_nil.
Ltac solve_good := cbn [good_element map fst snd];
  repeat match goal with
         | |- _ /\ _ => split
         | |- NoDup _ => nd
         | |- Forall _ _ => fa
         | |- True => exact I
         | |- _ = true => reflexivity
         end.

Lemma sample_good : good_element ok_name sample.
Proof. unfold sample. solve_good. Qed.

Example C05_example :
  good_element ok_name sample /\
  element_ser_run ok_name 20 None sample helper_default =
    SRDone [EStart "p:a" [("xmlns:p", "urn:p"); ("x", "1")]; EText "t"; EEmpty "b" [("xmlns", "urn:q")];
            EComment "c"; EStart "d" []; ECData "z"; EEnd "d"; EEnd "p:a"] helper_default.
Proof. split; [exact sample_good|vm_compute; reflexivity]. Qed.

(** C06.  Full statement: reading what was written gives an equal element.  It is
    false: an xmlns attribute kept in the attribute map is not written again when
    the parent already declares it ... *)
Theorem C06_attributes_refuted : exists e evs r,
  good_element ok_name e /\
  element_ser_run ok_name 20 None e helper_default = SRDone evs helper_default /\
  driver_run element_deser (fun _ => Some true) driver_new evs = RDone r [] /\ r <> e.
Proof.
  exists (Element "a" [("xmlns:p", "urn:p")] [("p", "urn:p")] [VElem (Element "b" [("xmlns:p", "urn:p")] [("p", "urn:p")] [])]).
  eexists. eexists. split; [|split; [vm_compute; reflexivity|split; [vm_compute; reflexivity|vm_compute; discriminate]]].
  solve_good.
Qed.
Print Assumptions C06_attributes_refuted.

(** ... and a document that re-binds a prefix and binds it back changes the
    namespace of an element. *)
Theorem C06_namespaces_refuted : exists doc r evs r',
  driver_run element_deser (fun _ => Some true) driver_new doc = RDone r [] /\
  good_element ok_name r /\
  element_ser_run ok_name 20 None r helper_default = SRDone evs helper_default /\
  driver_run element_deser (fun _ => Some true) driver_new evs = RDone r' [] /\
  ~ same_element_ns r r'.
Proof.
  exists [EStart "p:a" [("xmlns:p", "urn:x")]; EStart "p:b" [("xmlns:p", "urn:y")];
          EEmpty "p:c" [("xmlns:p", "urn:x")]; EEnd "p:b"; EEnd "p:a"].
  do 3 eexists. split; [vm_compute; reflexivity|]. split.
  { solve_good. }
  split; [vm_compute; reflexivity|]. split; [vm_compute; reflexivity|].
  intros H. inversion H as [n1 a1 a2 m1 m2 v1 v2 K1 K2 K3 HV]; subst.
  inversion HV as [|x y w1 w2 HB K4|v w1 w2 HN]; subst; try (exfalso; exact (HN _ eq_refl)).
  inversion HB as [n1 a1 a2 m1 m2 v1 v2 K5 K6 K7 HV2]; subst.
  inversion HV2 as [|x y w1 w2 HC K8|v w1 w2 HN]; subst; try (exfalso; exact (HN _ eq_refl)).
  inversion HC as [n1 a1 a2 m1 m2 v1 v2 K9 HM K10 K11]; subst.
  destruct (proj1 (HM ("p", "urn:x")) (or_introl eq_refl)) as [E|[]]. discriminate E.
Qed.
Print Assumptions C06_namespaces_refuted.

(** Proved part 1: for every writable tree, written anywhere (any helper), the
    reader gives back a tree with the same names, the same attributes in the same
    order apart from xmlns attributes, and the same values.  Missing: xmlns
    attributes and namespaces. *)
Theorem C06_content_partial : forall utf8_ok tb hist e name n,
  let h := hrun helper_default hist in
  good_element utf8_ok e -> tag_name utf8_ok name e = Ok n ->
  exists N, forall fuel, N < fuel -> exists evs,
    element_ser_run utf8_ok fuel name e h = SRDone evs h /\
    forall rest, exists r, driver_run element_deser tb driver_new (evs ++ rest) = RDone r rest /\
      same_element (rename n e) r.
Proof. intros. apply element_round_trip with (u := utf8_ok); [apply lv_run, lv_default|assumption|assumption]. Qed.
Print Assumptions C06_content_partial.

(** Proved part 2: the namespaces of every element come back as well, if the tree
    uses every prefix for one namespace only and vice versa, and children have
    the namespaces of their parents.  Missing: trees that re-bind prefixes. *)
Theorem C06_namespaces_partial : forall utf8_ok tb G e name n,
  dictionary G -> good_element utf8_ok e -> consistent G [] e -> tag_name utf8_ok name e = Ok n ->
  exists N, forall fuel, N < fuel -> exists evs,
    element_ser_run utf8_ok fuel name e helper_default = SRDone evs helper_default /\
    forall rest, exists r, driver_run element_deser tb driver_new (evs ++ rest) = RDone r rest /\
      same_element_ns (rename n e) r.
Proof. intros. eapply element_round_trip_ns; eassumption. Qed.
Print Assumptions C06_namespaces_partial.

Example C06_example :
  good_element ok_name sample /\ dictionary [("p", "urn:p"); ("", "urn:q")] /\
  consistent [("p", "urn:p"); ("", "urn:q")] [] sample.
Proof.
  split; [exact sample_good|]. split.
  - split; [cbn; nd|]. split; [cbn; nd|]. cbn; intuition discriminate.
  - assert (HI : forall (l l' : nsmap), forallb (fun x => existsb (fun y => String.eqb (fst x) (fst y) && String.eqb (snd x) (snd y)) l') l = true -> incl l l').
    { intros l l' H [k v] Hx. rewrite forallb_forall in H. specialize (H _ Hx). apply existsb_exists in H.
      destruct H as ([k' v'] & Hy & E). apply andb_true_iff in E. destruct E as [E1 E2]. cbn in E1, E2.
      apply String.eqb_eq in E1, E2. subst. exact Hy. }
    cbn. repeat split; try (apply HI; reflexivity); try exact I; intros x Hx;
      repeat (destruct Hx as [<-|Hx]); try destruct Hx; intros E; try discriminate E.
    + exists "p", "urn:p". split; [left; reflexivity|reflexivity].
    + exists "", "urn:q". split; [right; left; reflexivity|reflexivity].
Qed.

(** C07.  Full statement: all character data of the document is in the tree.  It
    is false: entity and character references are dropped. *)
Theorem C07_references_refuted : exists r,
  driver_run element_deser (fun _ => Some true) driver_new
    [EStart "a" []; EText "x"; ERef "amp"; EText "y"; EEnd "a"] = RDone r [] /\
  el_values r = [VText "x"; VText "y"].
Proof. eexists. split; vm_compute; reflexivity. Qed.
Print Assumptions C07_references_refuted.

(** Proved part: for every document (prolog, root element, anything after it)
    the reader returns the tree the document denotes: every element with its
    name, its attributes in order and exactly the namespaces in scope; every
    text, CDATA section and comment, in order.  Missing: references. *)
Theorem C07_document_partial : forall tb prolog t rest n,
  forallb leaf prolog = true -> root_name t = Some n -> proper t = true -> Forall good_tag (tree_tags t) ->
  exists r, denotes [] t (Some (VElem r)) /\
    driver_run element_deser tb driver_new (prolog ++ flatten t ++ rest) = RDone r rest.
Proof. exact document_read. Qed.
Print Assumptions C07_document_partial.

Example C07_example :
  let t := XElem "a" [("xmlns", "urn:a")] [XLeaf (EText "x"); XEmpty "b" [("k", "v")]; XLeaf (ERef "lt"); XLeaf (ECData "y")] in
  root_name t = Some "a" /\ proper t = true /\ Forall good_tag (tree_tags t) /\
  driver_run element_deser (fun _ => Some true) driver_new ([EDecl "v"; EText " "] ++ flatten t ++ [EEof]) =
    RDone (Element "a" [("xmlns", "urn:a")] [("", "urn:a")]
       [VText "x"; VElem (Element "b" [("k", "v")] [("", "urn:a")] []); VCData "y"]) [EEof].
Proof.
  cbn zeta. split; [reflexivity|]. split; [reflexivity|]. split; [|vm_compute; reflexivity].
  repeat apply Forall_cons; try apply Forall_nil; (split; [cbn [map fst]; nd|fa]).
Qed.

(** C51.  Full statement: a document that ends before its root element is closed
    is reported as an error.  It is false for [AnyElement]: the end-of-file event
    is ignored, so the driver asks the reader again and again and never returns. *)
Theorem C51_truncated_refuted : exists doc, forall n,
  exists v, driver_run element_deser (fun _ => Some true) driver_new (doc ++ repeat EEof n) = RMore v.
Proof. exists [EStart "a" []; EText "x"]. intros n. eapply eof_forever_doc. vm_compute. reflexivity. Qed.
Print Assumptions C51_truncated_refuted.

(** It happens for every input on which the driver still waits for events. *)
Theorem C51_truncated_hangs : forall tb evs v, driver_run element_deser tb driver_new evs = RMore v ->
  forall n, exists v', driver_run element_deser tb driver_new (evs ++ repeat EEof n) = RMore v'.
Proof. exact eof_forever_doc. Qed.
Print Assumptions C51_truncated_hangs.
