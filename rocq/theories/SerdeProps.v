(* C93: types rendered for serde with quick-xml read what the schema allows. *)
From Coq Require Import List String Arith Bool Lia.
From Verif Require Import BoxModel SerdeModel SerdeSpec SerdeProofs.
Import ListNotations.
Local Open Scope string_scope.

(* The content of a type is a sequence or an `all` that is rendered in place,
   and no local name is used twice: every valid element is read, every
   attribute and every element gets the value that the schema gives it.
   Missing: types where a local name is used twice, groups that are repeated or
   not rendered in place, nested content, mixed content, wildcards. *)
Theorem C93_group_partial : forall T V read_text read_node read_empty read_repeated trait_default attrs elems ns l atts nodes avs evs,
  NoDup (map (a_local T V) (allowed T V attrs)) ->
  NoDup (map (e_local T) (occurring T elems)) ->
  (forall d, In d elems -> plain_name (e_local T d)) ->
  attrs_distinct T V attrs atts ->
  seq_valid T elems nodes \/ all_valid T elems nodes ->
  Forall2 (attr_value T V read_text atts) (allowed T V attrs) avs ->
  Forall2 (elem_value T V read_node nodes) (occurring T elems) evs ->
  read T V read_text read_node read_empty read_repeated trait_default true attrs (BGroup 1 (Bounded 1) elems) (Element ns l atts nodes) = Some (avs ++ evs)%list.
Proof. exact group_read. Qed.

(* Whenever such an element is read, also an invalid one, each field was read
   from exactly the elements with its local name, required ones are there and
   an array has its length. *)
Theorem C93_only : forall T V read_text read_node read_empty read_repeated trait_default attrs elems ns l atts nodes vs,
  NoDup (map (a_local T V) (allowed T V attrs)) ->
  NoDup (map (e_local T) (occurring T elems)) ->
  (forall d, In d elems -> plain_name (e_local T d) /\ bounds_ok T d) ->
  read T V read_text read_node read_empty read_repeated trait_default true attrs (BGroup 1 (Bounded 1) elems) (Element ns l atts nodes) = Some vs ->
  exists avs evs, vs = (avs ++ evs)%list /\ List.length avs = List.length (allowed T V attrs) /\
    Forall2 (elem_back T V read_node nodes) (occurring T elems) evs.
Proof. exact group_back. Qed.

(* Simple content with a text. *)
Theorem C93_text : forall T V read_text read_node read_empty read_repeated trait_default attrs t b ns l atts s avs v,
  NoDup (map (a_local T V) (allowed T V attrs)) ->
  attrs_distinct T V attrs atts ->
  Forall2 (attr_value T V read_text atts) (allowed T V attrs) avs ->
  read_text t s = Some v ->
  forall flatten,
  read T V read_text read_node read_empty read_repeated trait_default flatten attrs (BSimple t b) (Element ns l atts [Text s]) = Some (avs ++ [FOne (VNamed v)])%list.
Proof. exact text_read. Qed.

(* Simple content without a text, if it is xs:string. *)
Theorem C93_empty_text_partial : forall T V read_text read_node read_empty read_repeated trait_default attrs t ns l atts avs v,
  NoDup (map (a_local T V) (allowed T V attrs)) ->
  attrs_distinct T V attrs atts ->
  Forall2 (attr_value T V read_text atts) (allowed T V attrs) avs ->
  trait_default t = Some v ->
  forall flatten,
  read T V read_text read_node read_empty read_repeated trait_default flatten attrs (BSimple t true) (Element ns l atts []) = Some (avs ++ [FOne (VNamed v)])%list.
Proof. exact empty_text_read. Qed.

(* A choice, also a repeated one, between elements that occur at most once
   each time: the alternatives of the document, in its order. *)
Theorem C93_choice_partial : forall T V read_text read_node read_empty read_repeated trait_default attrs elems min max flatten ns l atts nodes avs ws fv,
  NoDup (map (a_local T V) (allowed T V attrs)) ->
  NoDup (map (e_local T) elems) -> elems <> [] ->
  (forall d, In d elems -> plain_name (e_local T d) /\ bounds_ok T d /\ e_max T d = Bounded 1) ->
  attrs_distinct T V attrs atts ->
  in_bounds min max (List.length nodes) -> max <> Bounded 0 ->
  Forall2 (attr_value T V read_text atts) (allowed T V attrs) avs ->
  Forall2 (chosen T V read_node elems) nodes ws ->
  choice_value V min max ws fv ->
  read T V read_text read_node read_empty read_repeated trait_default flatten attrs (BChoice min max elems) (Element ns l atts nodes) = Some (avs ++ [fv])%list.
Proof. exact choice_read. Qed.

Print Assumptions C93_group_partial.
Print Assumptions C93_only.
Print Assumptions C93_text.
Print Assumptions C93_empty_text_partial.
Print Assumptions C93_choice_partial.

(* Two elements with the same local name in different namespaces: a valid
   element is not read. *)
Theorem C93_namespaces_refuted :
  ~ (forall elems nodes, NoDup (elem_names elems) -> seq_valid unit elems nodes ->
       read_ex true [] (BGroup 1 (Bounded 1) elems) (Element "" "r" [] nodes) <> None).
Proof.
  intros H.
  apply (H [elem "p" "a" 1 (Bounded 1); elem "q" "a" 1 (Bounded 1)] [leaf "p" "a" "1"; leaf "q" "a" "2"]).
  - repeat constructor; cbn; intuition congruence.
  - apply (sv_cons unit (elem "p" "a" 1 (Bounded 1)) _ [leaf "p" "a" "1"]); [repeat constructor|split; cbn; lia|].
    apply (sv_cons unit (elem "q" "a" 1 (Bounded 1)) _ [leaf "q" "a" "2"]); [repeat constructor|split; cbn; lia|].
    constructor.
  - reflexivity.
Qed.
Print Assumptions C93_namespaces_refuted.

(* An attribute with the local name of a declared one, in another namespace: an
   element with `xsi:type` is not read if its type has an attribute `type`. *)
Theorem C93_xsi_type_refuted :
  ~ (forall attrs atts, NoDup (attr_names attrs) ->
       NoDup (map (fun a => (at_ns a, at_local a)) atts) ->
       (forall d, In d attrs -> exists f, attr_value unit string text_of atts d f) ->
       read_ex true attrs BEmpty (Element "" "r" atts []) <> None).
Proof.
  intros H.
  apply (H [AttrDecl "" "type" Required None tt] [Attribute "" "type" "1"; Attribute "xsi" "type" "2"]).
  - repeat constructor; cbn; intuition congruence.
  - repeat constructor; cbn; intuition congruence.
  - intros d [E|[]]. subst d. exists (FOne (VNamed "1")).
    apply (av_present unit string text_of _ _ (Attribute "" "type" "1")); cbn; auto. split; reflexivity.
  - reflexivity.
Qed.
Print Assumptions C93_xsi_type_refuted.

(* A group that is repeated, or that is not rendered in place (the default): its
   elements are looked for inside of the first of them. *)
Theorem C93_content_refuted :
  (exists nodes, seq_valid unit [elem "" "a" 1 (Bounded 1)] nodes /\
     read_ex true [] (BGroup 0 Unbounded [elem "" "a" 1 (Bounded 1)]) (Element "" "r" [] nodes) = None) /\
  (exists nodes, seq_valid unit [elem "" "a" 1 (Bounded 1)] nodes /\
     read_ex false [] (BGroup 1 (Bounded 1) [elem "" "a" 1 (Bounded 1)]) (Element "" "r" [] nodes) = None).
Proof.
  split; exists ([leaf "" "a" "1"] ++ [])%list; (split; [|reflexivity]);
    (constructor; [repeat constructor|split; cbn; lia|constructor]).
Qed.
Print Assumptions C93_content_refuted.

(* A choice that has to be made once and has an optional alternative: the empty
   element is valid, but not read. *)
Theorem C93_empty_choice_refuted :
  exists d, seq_valid unit [d] [] /\
    read_ex true [] (BChoice 1 (Bounded 1) [d]) (Element "" "r" [] []) = None.
Proof.
  exists (elem "" "a" 0 (Bounded 1)). split; [|reflexivity].
  apply (sv_cons unit _ [] []); [constructor|split; cbn; lia|constructor].
Qed.
Print Assumptions C93_empty_choice_refuted.

(* Simple content other than xs:string with an empty value, such as an empty
   list: the element is valid, but not read. *)
Theorem C93_empty_text_refuted :
  text_of tt "" <> None /\ read_ex true [] (BSimple tt false) (Element "" "r" [] []) = None.
Proof. split; [discriminate|reflexivity]. Qed.
Print Assumptions C93_empty_text_refuted.

(* Elements of an `all` that may be repeated (XSD 1.1) and do not follow each
   other. *)
Theorem C93_interleaved_refuted :
  exists elems nodes, NoDup (map (e_local unit) elems) /\
    (forall n, In n nodes -> exists d, In d elems /\ named (e_ns unit d) (e_local unit d) n) /\
    (forall d, In d elems -> in_bounds (e_min unit d) (e_max unit d)
       (List.length (filter (is_named (e_ns unit d) (e_local unit d)) nodes))) /\
    read_ex true [] (BGroup 1 (Bounded 1) elems) (Element "" "r" [] nodes) = None.
Proof.
  exists [elem "" "a" 0 Unbounded; elem "" "b" 1 (Bounded 1)],
    [leaf "" "a" "1"; leaf "" "b" "2"; leaf "" "a" "3"].
  split; [repeat constructor; cbn; intuition congruence|]. split.
  - intros n [E|[E|[E|[]]]]; subst n.
    + exists (elem "" "a" 0 Unbounded). cbn. auto.
    + exists (elem "" "b" 1 (Bounded 1)). cbn. auto.
    + exists (elem "" "a" 0 Unbounded). cbn. auto.
  - split; [|reflexivity]. intros d [E|[E|[]]]; subst d; split; cbn; lia.
Qed.
Print Assumptions C93_interleaved_refuted.

(* Elements that are not valid are read as well: neither the number nor the
   namespace of the elements is checked. *)
Theorem C93_invalid_refuted :
  exists elems nodes, NoDup (map (e_local unit) elems) /\
    ~ seq_valid unit elems nodes /\ ~ all_valid unit elems nodes /\
    read_ex true [] (BGroup 1 (Bounded 1) elems) (Element "" "r" [] nodes) =
      Some [FList [VNamed "1"; VNamed "2"; VNamed "3"]].
Proof.
  exists [elem "p" "a" 1 (Bounded 2)], [leaf "q" "a" "1"; leaf "q" "a" "2"; leaf "q" "a" "3"].
  split; [repeat constructor; cbn; intuition congruence|]. split; [|split; [|reflexivity]].
  - intros H. inversion H as [|d ds xs rest F B R]; subst. inversion R; subst. rewrite app_nil_r in *.
    subst xs. cbn in B. destruct B as [_ B]. cbn in B. lia.
  - intros [_ [H _]]. destruct (H (leaf "q" "a" "1") (or_introl eq_refl)) as [d [[E|[]] [N _]]]. subst d. discriminate N.
Qed.
Print Assumptions C93_invalid_refuted.

(* An element that has to occur more than 32 times is an array that serde cannot
   read: the rendered type does not compile. *)
Theorem C93_array_refuted :
  exists d f, bounds_ok unit d /\ render_elem unit string d = Some f /\ field_derives unit string f = false.
Proof.
  exists (elem "" "a" 33 (Bounded 33)). eexists. split; [cbn; lia|]. split; reflexivity.
Qed.
Print Assumptions C93_array_refuted.

(* An enumeration with a variant for other values does not compile. *)
Theorem C93_other_refuted : forall name, variant_derives (render_variant name true) = false.
Proof. reflexivity. Qed.
Print Assumptions C93_other_refuted.

(* --- a case that meets the hypotheses --- *)

Definition ex_attrs : list (attr_decl unit string) :=
  [AttrDecl "" "id" Required None tt; AttrDecl "" "lang" Optional (Some "en") tt;
   AttrDecl "" "note" Optional None tt; AttrDecl "" "old" Prohibited None tt].
Definition ex_elems : list (elem_decl unit) :=
  [elem "p" "a" 1 (Bounded 1); elem "p" "b" 0 Unbounded; elem "q" "c" 2 (Bounded 2);
   elem "p" "d" 0 (Bounded 1); elem "p" "e" 0 (Bounded 0)].
Definition ex_atts : list attribute := [Attribute "xsi" "nil" "false"; Attribute "" "id" "7"].
Definition ex_nodes : list node :=
  [leaf "p" "a" "1"; leaf "p" "b" "2"; leaf "p" "b" "3"; leaf "q" "c" "4"; leaf "q" "c" "5"].

Example C93_case_hypotheses :
  NoDup (map (a_local unit string) (allowed unit string ex_attrs)) /\
  NoDup (map (e_local unit) (occurring unit ex_elems)) /\
  (forall d, In d ex_elems -> plain_name (e_local unit d)) /\
  attrs_distinct unit string ex_attrs ex_atts /\ seq_valid unit ex_elems ex_nodes /\
  Forall2 (attr_value unit string text_of ex_atts) (allowed unit string ex_attrs)
    [FOne (VNamed "7"); FOne (VNamed "en"); FOpt None] /\
  Forall2 (elem_value unit string node_text ex_nodes) (occurring unit ex_elems)
    [FOne (VNamed "1"); FList [VNamed "2"; VNamed "3"]; FList [VNamed "4"; VNamed "5"]; FOpt None].
Proof.
  split; [cbn; repeat constructor; cbn; intuition congruence|].
  split; [cbn; repeat constructor; cbn; intuition congruence|].
  split; [cbn; intros d H; repeat destruct H as [<-|H]; try destruct H; cbn; split; discriminate|].
  split.
  { split; [cbn; repeat constructor; cbn; intuition congruence|].
    cbn. intros a d Ha Hd. repeat destruct Ha as [<-|Ha]; try destruct Ha;
      repeat destruct Hd as [<-|Hd]; try destruct Hd; cbn; congruence. }
  split.
  { unfold ex_nodes, ex_elems.
    apply (sv_cons unit (elem "p" "a" 1 (Bounded 1)) _ [leaf "p" "a" "1"]); [repeat constructor|split; cbn; lia|].
    apply (sv_cons unit (elem "p" "b" 0 Unbounded) _ [leaf "p" "b" "2"; leaf "p" "b" "3"]); [repeat constructor|split; cbn; auto; lia|].
    apply (sv_cons unit (elem "q" "c" 2 (Bounded 2)) _ [leaf "q" "c" "4"; leaf "q" "c" "5"]); [repeat constructor|split; cbn; lia|].
    apply (sv_cons unit (elem "p" "d" 0 (Bounded 1)) _ []); [constructor|split; cbn; lia|].
    apply (sv_cons unit (elem "p" "e" 0 (Bounded 0)) _ []); [constructor|split; cbn; lia|].
    constructor. }
  split; cbn.
  - constructor; [|constructor; [|constructor; [|constructor]]].
    + apply (av_present unit string text_of _ _ (Attribute "" "id" "7")); cbn; auto. split; reflexivity.
    + apply av_default; [|reflexivity]. unfold is_attr. cbn. intros a Ha. repeat destruct Ha as [<-|Ha]; try destruct Ha; cbn; intuition congruence.
    + apply av_absent; try reflexivity. unfold is_attr. cbn. intros a Ha. repeat destruct Ha as [<-|Ha]; try destruct Ha; cbn; intuition congruence.
  - constructor; [|constructor; [|constructor; [|constructor; [|constructor]]]].
    + apply (ev_one unit string node_text _ _ (leaf "p" "a" "1")); reflexivity.
    + apply (ev_list unit string node_text _ _ ["2"; "3"]); [repeat constructor|discriminate].
    + apply (ev_list unit string node_text _ _ ["4"; "5"]); [repeat constructor|discriminate].
    + apply ev_none; reflexivity.
Qed.

Example C93_case_read : read_ex true ex_attrs (BGroup 1 (Bounded 1) ex_elems) (Element "" "r" ex_atts ex_nodes) =
  Some [FOne (VNamed "7"); FOne (VNamed "en"); FOpt None;
        FOne (VNamed "1"); FList [VNamed "2"; VNamed "3"]; FList [VNamed "4"; VNamed "5"]; FOpt None].
Proof. reflexivity. Qed.

Definition ex_choice : list (elem_decl unit) := [elem "p" "a" 1 (Bounded 1); elem "q" "b" 1 (Bounded 1)].

Example C93_case_choice :
  (forall d, In d ex_choice -> plain_name (e_local unit d) /\ bounds_ok unit d /\ e_max unit d = Bounded 1) /\
  Forall2 (chosen unit string node_text ex_choice) [leaf "q" "b" "1"; leaf "p" "a" "2"; leaf "q" "b" "3"]
    [VVariant "b" "1"; VVariant "a" "2"; VVariant "b" "3"] /\
  read_ex true ex_attrs (BChoice 0 Unbounded ex_choice)
    (Element "" "r" ex_atts [leaf "q" "b" "1"; leaf "p" "a" "2"; leaf "q" "b" "3"]) =
  Some [FOne (VNamed "7"); FOne (VNamed "en"); FOpt None;
        FList [VVariant "b" "1"; VVariant "a" "2"; VVariant "b" "3"]].
Proof.
  split; [|split; [|reflexivity]].
  - cbn. intros d H. repeat destruct H as [<-|H]; try destruct H; cbn; repeat split; try discriminate; lia.
  - repeat constructor.
    + exists (elem "q" "b" 1 (Bounded 1)), "1". cbn. auto 6.
    + exists (elem "p" "a" 1 (Bounded 1)), "2". cbn. auto 6.
    + exists (elem "q" "b" 1 (Bounded 1)), "3". cbn. auto 6.
Qed.
