(** C90: substitution groups and derived types. *)
From Verif Require Import Base.
From Verif Require Import SubstModel SubstSpec SubstProofs SubstFixProofs SubstMainProofs.

(** The types of the nodes are made and corrected without an error.  (References have at most three steps, so six are enough
    for [get_resolved] not to run out of fuel.) *)
Theorem C90_ends : forall nodes dynamic fuel g, ordered nodes -> 2 * length nodes + 3 <= fuel -> 6 <= g ->
  exists ts', interprets fuel g nodes dynamic ts'.
Proof. exact ends. Qed.
Print Assumptions C90_ends.

(** An element that is abstract or the head of a substitution group: the alternatives are the element, if it is not
    abstract, and the members of its group, also those of members, each once and with its own type.  Any other element
    has its type. *)
Theorem C90_elements : forall nodes dynamic fuel g ts' e, ordered nodes -> 2 * length nodes + 3 <= fuel -> 6 <= g ->
  interprets fuel g nodes dynamic ts' -> In (NElement e) nodes ->
  (e_abstract e = true \/ (exists m, member nodes m (e_name e)) -> element_listed nodes ts' e) /\
  (e_abstract e = false -> (forall m, ~ member nodes m (e_name e)) -> element_plain ts' e).
Proof. intros nodes dynamic fuel g ts' e OR L G IN IE. destruct (results _ _ _ _ _ OR L G IN) as (A & B & _). split; [exact (A e IE)|exact (B e IE)]. Qed.
Print Assumptions C90_elements.

(** A complex type that is abstract or made dynamic: the alternatives are the type, if it is not abstract, and the types
    that are derived from it in any number of steps. *)
Theorem C90_types : forall nodes dynamic fuel g ts' c, ordered nodes -> 2 * length nodes + 3 <= fuel -> 6 <= g ->
  interprets fuel g nodes dynamic ts' -> In (NType c) nodes -> c_abstract c = true \/ dynamic (c_name c) = true ->
  type_listed nodes dynamic ts' c.
Proof. intros nodes dynamic fuel g ts' c OR L G IN IC H. destruct (results _ _ _ _ _ OR L G IN) as (_ & _ & A). exact (A c IC H). Qed.
Print Assumptions C90_types.

(** What a document may use is offered. *)
Theorem C90_complete : forall nodes dynamic fuel g ts', ordered nodes -> 2 * length nodes + 3 <= fuel -> 6 <= g ->
  interprets fuel g nodes dynamic ts' ->
  (forall m e, In (NElement m) nodes -> In (NElement e) nodes -> substitutable nodes m e -> m <> e ->
     offers ts' (KElement, e_name e) (KElement, e_name m)) /\
  (forall d b, In (NType d) nodes -> In (NType b) nodes -> c_abstract b = true \/ dynamic (c_name b) = true -> usable nodes d b ->
     offers ts' (KType, c_name b) (KType, c_name d)).
Proof.
  intros nodes dynamic fuel g ts' OR L G IN. split.
  - intros m e IM IE (_ & [X|[M _]]) N; [contradiction|]. exact (offered_element _ _ _ _ _ m e OR L G IN IM IE M).
  - intros d b ID IB H (A & [->|D]); apply (offered_type _ _ _ _ _ _ b OR L G IN IB H); auto.
Qed.
Print Assumptions C90_complete.

(** What is offered may be used, unless it is abstract, not named, or the head blocks substitution. *)
Theorem C90_only_partial : forall nodes dynamic fuel g ts', ordered nodes -> 2 * length nodes + 3 <= fuel -> 6 <= g ->
  interprets fuel g nodes dynamic ts' ->
  (forall e k, In (NElement e) nodes -> e_blocked e = false -> offers ts' (KElement, e_name e) k ->
     exists m, In (NElement m) nodes /\ k = (KElement, e_name m) /\ (e_abstract m = true \/ substitutable nodes m e)) /\
  (forall b k, In (NType b) nodes -> c_abstract b = true \/ dynamic (c_name b) = true -> offers ts' (KType, c_name b) k ->
     fst k = KElementType \/ exists d, In (NType d) nodes /\ k = (KType, c_name d) /\ (c_abstract d = true \/ usable nodes d b)).
Proof.
  intros nodes dynamic fuel g ts' OR L G IN. split.
  - intros e k IE B O. destruct (only_element _ _ _ _ _ _ e OR L G IN IE O) as (m & IM & -> & H). exists m. split; [exact IM|]. split; [reflexivity|].
    destruct (e_abstract m) eqn:A; [auto|]. right. split; [exact A|]. destruct H as [[-> _]|M]; auto.
  - intros b k IB H O. apply (offered_type _ _ _ _ _ _ b OR L G IN IB H) in O as [[-> A]|D].
    + right. exists b. split; [exact IB|]. split; [reflexivity|]. right. split; auto.
    + assert (BX : exists b', base_of nodes k b') by (clear - D; induction D; eauto).
      destruct BX as (b' & BX). destruct BX as [d b' ID _|e b' IE _]; [|left; reflexivity]. right. exists d. split; [exact ID|]. split; [reflexivity|].
      destruct (c_abstract d) eqn:A; [auto|]. right. split; auto.
Qed.
Print Assumptions C90_only_partial.

(** * A case *)
(** 1: an abstract type, 2 and 3 derived from it and from 2, 4: a simple type; the elements 10 (abstract, of type 1),
    11 (nillable, of type 2, for 10), 12 (with a type of its own derived from 3, for 11) and 13 (simple). *)
Definition case : list node :=
  [NSimple 4; NType (CType 1 None true); NType (CType 2 (Some 1) false); NType (CType 3 (Some 2) false);
   NElement (Element 10 (TNamed 1) false true [] false);
   NElement (Element 11 (TNamed 2) true false [10] false);
   NElement (Element 12 (TComplex (Some 3)) false false [11] false);
   NElement (Element 13 (TNamed 4) false false [] false)].
Definition case_dynamic (n : nat) : bool := Nat.eqb n 2.
Definition case_keys : list ident :=
  [(KType, 4); (KType, 1); (KVariant, 1); (KType, 2); (KVariant, 2); (KType, 3); (KElement, 10); (KNillable, 11); (KSubst, 11); (KElement, 11);
   (KElementType, 12); (KSubst, 12); (KElement, 12); (KElement, 13)].
Example C90_case_ordered : ordered case.
Proof. apply okb_ordered. vm_compute. reflexivity. Qed.
Example C90_case_run : exists ts', interprets 19 6 case case_dynamic ts'.
Proof. apply C90_ends; [exact C90_case_ordered|cbn; lia|lia]. Qed.
Example C90_case_members : member case 12 10 /\ derives case (KElementType, 12) 1 /\
  substitutable case (Element 12 (TComplex (Some 3)) false false [11] false) (Element 10 (TNamed 1) false true [] false).
Proof.
  assert (M : member case 12 10).
  { apply (member_trans case 12 11 10).
    - apply (member_direct case (Element 12 (TComplex (Some 3)) false false [11] false) 11); cbn; auto 10.
    - apply (member_direct case (Element 11 (TNamed 2) true false [10] false) 10); cbn; auto 10. }
  split; [exact M|]. split; [|split; [reflexivity|right; split; [exact M|reflexivity]]].
  apply (derives_trans case _ 2 1).
  - apply (derives_trans case _ 3 2).
    + apply derives_direct. apply (base_inline case (Element 12 (TComplex (Some 3)) false false [11] false) 3); cbn; auto 10.
    + apply derives_direct. apply (base_named case (CType 3 (Some 2) false) 2); cbn; auto 10.
  - apply derives_direct. apply (base_named case (CType 2 (Some 1) false) 1); cbn; auto 10.
Qed.
Example C90_case_result :
  match generate_types case_dynamic (find_element case) 19 case (fun _ => None) with
  | Ok ts => match fix_derived_types 6 case_keys ts with
             | Some ts' => map ts' [(KElement, 10); (KElement, 11); (KElement, 12); (KElement, 13); (KType, 1); (KType, 2); (KType, 3)]
             | None => []
             end
  | _ => []
  end =
  [Some (VDyn (Some (KType, 1)) true [((KElement, 11), Derived (KSubst, 11) Direct); ((KElement, 12), Derived (KElementType, 12) Indirect)]);
   Some (VDyn (Some (KSubst, 11)) false [((KElement, 11), Derived (KSubst, 11) Concrete); ((KElement, 12), Derived (KElementType, 12) Direct)]);
   Some (VRef (KSubst, 12) false);
   Some (VRef (KType, 4) false);
   Some (VDyn (Some (KVariant, 1)) true [((KType, 2), Derived (KVariant, 2) Direct); ((KType, 3), Derived (KType, 3) Indirect); ((KElementType, 12), Derived (KElementType, 12) Indirect)]);
   Some (VDyn (Some (KVariant, 2)) false [((KType, 2), Derived (KVariant, 2) Concrete); ((KType, 3), Derived (KType, 3) Direct); ((KElementType, 12), Derived (KElementType, 12) Indirect)]);
   Some (VComplex (Some (KType, 2)))].
Proof. vm_compute. reflexivity. Qed.

(** * What is offered although no document may use it *)
(** A member that is abstract. *)
Definition e1 := Element 1 (TNamed 9) false false [] false.
Definition e2 := Element 2 (TNamed 9) false true [1] false.
Theorem C90_abstract_element_refuted : ordered [NElement e1; NElement e2] /\ e_blocked e1 = false /\
  forall dynamic fuel g ts', 7 <= fuel -> 6 <= g -> interprets fuel g [NElement e1; NElement e2] dynamic ts' ->
  offers ts' (KElement, 1) (KElement, 2) /\ ~ substitutable [NElement e1; NElement e2] e2 e1.
Proof.
  assert (OR : ordered [NElement e1; NElement e2]) by (apply okb_ordered; reflexivity).
  split; [exact OR|]. split; [reflexivity|]. intros dynamic fuel g ts' L G IN. split; [|intros (A & _); discriminate A].
  apply (offered_element _ _ _ _ _ e2 e1 OR L G IN); cbn; auto. apply (member_direct _ e2 1); cbn; auto.
Qed.
Print Assumptions C90_abstract_element_refuted.
(** A derived type that is abstract. *)
Definition c1 := CType 1 None false.
Definition c2 := CType 2 (Some 1) true.
Theorem C90_abstract_type_refuted : ordered [NType c1; NType c2] /\
  forall fuel g ts', 7 <= fuel -> 6 <= g -> interprets fuel g [NType c1; NType c2] (fun _ => true) ts' ->
  offers ts' (KType, 1) (KType, 2) /\ ~ usable [NType c1; NType c2] c2 c1.
Proof.
  assert (OR : ordered [NType c1; NType c2]) by (apply okb_ordered; reflexivity).
  split; [exact OR|]. intros fuel g ts' L G IN. split; [|intros (A & _); discriminate A].
  apply (offered_type _ _ _ _ _ _ c1 OR L G IN); cbn; auto. right. apply derives_direct. apply (base_named _ c2 1); cbn; auto.
Qed.
Print Assumptions C90_abstract_type_refuted.
(** The type of an element, which has no name that [xsi:type] could give. *)
Definition e3 := Element 3 (TComplex (Some 1)) false false [] false.
Theorem C90_anonymous_refuted : ordered [NType c1; NElement e3] /\
  forall fuel g ts', 7 <= fuel -> 6 <= g -> interprets fuel g [NType c1; NElement e3] (fun _ => true) ts' ->
  offers ts' (KType, 1) (KElementType, 3).
Proof.
  assert (OR : ordered [NType c1; NElement e3]) by (apply okb_ordered; reflexivity).
  split; [exact OR|]. intros fuel g ts' L G IN.
  apply (offered_type _ _ _ _ _ _ c1 OR L G IN); cbn; auto. right. apply derives_direct. apply (base_inline _ e3 1); cbn; auto.
Qed.
Print Assumptions C90_anonymous_refuted.
(** A member, although the head has [block="substitution"]. *)
Definition e4 := Element 4 (TNamed 9) false false [] true.
Definition e5 := Element 5 (TNamed 9) false false [4] false.
Theorem C90_blocked_refuted : ordered [NElement e4; NElement e5] /\
  forall dynamic fuel g ts', 7 <= fuel -> 6 <= g -> interprets fuel g [NElement e4; NElement e5] dynamic ts' ->
  offers ts' (KElement, 4) (KElement, 5) /\ ~ substitutable [NElement e4; NElement e5] e5 e4.
Proof.
  assert (OR : ordered [NElement e4; NElement e5]) by (apply okb_ordered; reflexivity).
  split; [exact OR|]. intros dynamic fuel g ts' L G IN. split; [|intros (_ & [X|[_ X]]); discriminate X].
  apply (offered_element _ _ _ _ _ e5 e4 OR L G IN); cbn; auto. apply (member_direct _ e5 4); cbn; auto.
Qed.
Print Assumptions C90_blocked_refuted.

(** With several heads, a direct member can be called an indirect one: 8 names 7 and 6, and 7 names 6. *)
Definition several : list node :=
  [NElement (Element 6 (TNamed 9) false false [] false); NElement (Element 7 (TNamed 9) false false [6] false);
   NElement (Element 8 (TNamed 9) false false [7; 6] false)].
Theorem C90_direct_refuted : ordered several /\
  exists ts, generate_types (fun _ => false) (find_element several) 9 several (fun _ => None) = Ok ts /\
    ts (KElement, 6) = Some (VDyn (Some (KType, 9)) false [((KElement, 6), Derived (KType, 9) Concrete); ((KElement, 7), Derived (KElement, 7) Direct);
                                                          ((KElement, 8), Derived (KElement, 8) Indirect)]).
Proof. split; [apply okb_ordered; reflexivity|]. eexists. split; vm_compute; reflexivity. Qed.
Print Assumptions C90_direct_refuted.
