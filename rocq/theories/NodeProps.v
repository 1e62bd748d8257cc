(** C45: base types are generated before the types deriving from them. *)
From Verif Require Import NodeModel NodeSpec NodeProofs.
Local Open Scope string_scope.
Local Open Scope list_scope.

(** * The order of a graph *)

(** A node comes after everything it needs. *)
Theorem C45_order : forall c fuel l before i after j,
  create_node_list c fuel = Ok l -> l = before ++ i :: after ->
  needs c i j -> generated c j -> In j before.
Proof. exact list_order. Qed.
Print Assumptions C45_order.

(** Every type, element and attribute is listed once, and nothing else. *)
Theorem C45_complete : forall c fuel l, create_node_list c fuel = Ok l ->
  NoDup l /\ forall i, In i l <-> generated c i.
Proof. exact list_complete. Qed.
Print Assumptions C45_complete.

(** With a cycle there is no list, *)
Theorem C45_cycle_no_list : forall c fuel l i, create_node_list c fuel = Ok l -> ~ steps (edge c) i i.
Proof. exact cycle_not_ok. Qed.
Print Assumptions C45_cycle_no_list.

(** ... and the error is only reported if there is one. *)
Theorem C45_error_cycle : forall c fuel i, create_node_list c fuel = Err (CircularDependency i) ->
  exists x, steps (edge c) x x.
Proof. exact circular_list. Qed.
Print Assumptions C45_error_cycle.

(** The recursion ends unless groups refer to each other in a circle: enough fuel exists, and
    the result is a list or the error. *)
Theorem C45_ends_partial : forall c, no_lazy_cycle c -> exists fuel0, forall fuel, fuel0 <= fuel ->
  (exists l, create_node_list c fuel = Ok l) \/ (exists i, create_node_list c fuel = Err (CircularDependency i)).
Proof.
  intros c A. exists ((keys c + 1) * (keys c + 2)). intros fuel F.
  pose proof (list_ends c A fuel F) as N.
  assert (P : create_node_list c fuel <> Panic).
  { unfold create_node_list. generalize (Listing [] []). induction (map fst c) as [|i is IH]; intros s; cbn [visit_all]; [discriminate|].
    pose proof (visit_no_panic c fuel false i s) as V.
    destruct (mark_get i (l_marks s)) as [[]|]; auto; destruct (visit_node c fuel false i s); try discriminate; try congruence; auto. }
  destruct (create_node_list c fuel) as [l|[i|]|]; try congruence; eauto.
Qed.
Print Assumptions C45_ends_partial.

(** * In terms of the schema *)

Definition id (n : string) (t : ident_type) : tident := TIdent 2 1 (Named n) t.
Definition lookup_name (me : tident) (q : qref) (t : ident_type) : option tident :=
  Some (TIdent (fst q) 1 (Named (snd q)) t).

(** Full property: a type comes after its base type and after the head of its substitution
    group.  Proved unless a later reference to the same name has another strength, and if the
    identifiers of all components are different. *)
Theorem C45_base_partial : forall resolve l c fuel nodes kd i x k q b before after,
  collect resolve l [] = Some c -> NoDup (schema_idents l) -> component l kd i x ->
  k = RBase \/ k = RHead -> last_says x k q -> resolve i q (ref_type k) = Some b ->
  create_node_list c fuel = Ok nodes -> generated c b -> nodes = before ++ i :: after -> In b before.
Proof.
  intros resolve l c fuel nodes kd i x k q b before after H ND C K LS R L G E.
  eapply list_order; eauto. apply needs_strong. eapply base_edge; eauto.
Qed.
Print Assumptions C45_base_partial.

(** A type that extends another one and has an element of that type. *)
Definition t := id "T" ITType.
Definition b := id "B" ITType.
Definition list_node : list (node_kind * tident * part) :=
  [(NComplexType, t, PInside [PRef RBase (2, "B"); PInside [PRef RType (2, "B")]]); (NComplexType, b, PInside [])].
Theorem C45_base_refuted : exists c,
  collect lookup_name list_node [] = Some c /\ NoDup (schema_idents list_node) /\
  In (RBase, (2, "B")) (references (PInside [PRef RBase (2, "B"); PInside [PRef RType (2, "B")]])) /\
  create_node_list c 9 = Ok [t; b].
Proof.
  eexists. split; [vm_compute; reflexivity|]. split; [repeat constructor; cbn; intuition discriminate|].
  split; [left; reflexivity|]. vm_compute. reflexivity.
Qed.
Print Assumptions C45_base_refuted.

(** Two groups that refer to each other, used by a type in front of them: the recursion does
    not end. *)
Definition g := id "G" ITGroup.
Definition h := id "H" ITGroup.
Definition circle : node_cache :=
  [(t, Entry NComplexType [(KNamed 2 ITGroup "G", Lazy g)]); (g, Entry NGroup [(KNamed 2 ITGroup "H", Lazy h)]);
   (h, Entry NGroup [(KNamed 2 ITGroup "G", Lazy g)])].
Theorem C45_ends_refuted : forall fuel, create_node_list circle fuel = Err OutOfFuel.
Proof.
  assert (H : forall fuel, (forall s, mark_get g (l_marks s) = None -> mark_get h (l_marks s) = None ->
      visit_node circle fuel true g s = Err OutOfFuel /\ visit_node circle fuel true h s = Err OutOfFuel)).
  { induction fuel as [|fuel IH]; intros s G H; [split; reflexivity|]. destruct (IH s G H) as [A B].
    split; cbn [visit_node]; [rewrite G|rewrite H].
    - replace (node_get g circle) with (Some (Entry NGroup [(KNamed 2 ITGroup "H", Lazy h)])) by (vm_compute; reflexivity).
      cbn [e_deps visit_deps]. rewrite B. reflexivity.
    - replace (node_get h circle) with (Some (Entry NGroup [(KNamed 2 ITGroup "G", Lazy g)])) by (vm_compute; reflexivity).
      cbn [e_deps visit_deps]. rewrite A. reflexivity. }
  intros [|fuel]; [reflexivity|].
  unfold create_node_list. change (map fst circle) with [t; g; h]. cbn [visit_all l_marks mark_get visit_node].
  replace (node_get t circle) with (Some (Entry NComplexType [(KNamed 2 ITGroup "G", Lazy g)])) by (vm_compute; reflexivity).
  cbn [e_deps visit_deps]. rewrite (proj1 (H fuel (mark_set t Visited (Listing [] [])) eq_refl eq_refl)). reflexivity.
Qed.
Print Assumptions C45_ends_refuted.

(** A substitution group over several levels, a local element with a base of its own, and a
    type in a group. *)
Definition sample : list (node_kind * tident * part) :=
  [(NElement, id "c" ITElement, PInside [PRef RHead (2, "a")]);
   (NComplexType, id "D" ITType,
     PInside [PRef RBase (2, "C"); PRef RGroup (2, "G");
              PInline NElement 7 (id "D.x" ITElement) [PInside [PRef RBase (2, "E")]]]);
   (NComplexType, id "C" ITType, PInside [PRef RType (2, "D"); PRef RBase (2, "E")]);
   (NGroup, id "G" ITGroup, PInside [PRef RElement (2, "c")]);
   (NComplexType, id "E" ITType, PInside []);
   (NElement, id "a" ITElement, PInside [PRef RType (2, "E")])].
Example C45_case : exists c,
  collect lookup_name sample [] = Some c /\ NoDup (schema_idents sample) /\
  create_node_list c 20 = Ok [id "a" ITElement; id "c" ITElement; id "E" ITType; id "D.x" ITElement; id "C" ITType; id "D" ITType].
Proof.
  eexists. split; [vm_compute; reflexivity|]. split; [|vm_compute; reflexivity].
  repeat (constructor; [cbn; intuition discriminate|]). constructor.
Qed.
Example C45_case_hyp : component sample NElement (id "D.x" ITElement) (PInside [PInside [PRef RBase (2, "E")]]) /\
  last_says (PInside [PInside [PRef RBase (2, "E")]]) RBase (2, "E") /\
  last_says (PInside [PRef RType (2, "D"); PRef RBase (2, "E")]) RBase (2, "E").
Proof.
  split; [|split].
  - eapply comp_in; [right; left; reflexivity|]. eapply inside_in; [right; right; left; reflexivity|]. apply inside_this.
  - exists [], []. split; [reflexivity|intros k []].
  - exists [(RType, (2, "D"))], []. split; [reflexivity|intros k []].
Qed.

(** Two types that extend each other. *)
Example C45_case_cycle : create_node_list
  [(t, Entry NComplexType [(KNamed 2 ITType "B", Strong b)]); (b, Entry NComplexType [(KNamed 2 ITType "T", Strong t)])] 9 =
  Err (CircularDependency t).
Proof. vm_compute. reflexivity. Qed.

Example C45_case_ends : no_lazy_cycle [(t, Entry NComplexType [(KNamed 2 ITGroup "G", Lazy g)]); (g, Entry NGroup [])].
Proof.
  set (c := [(t, _); (g, _)]).
  assert (E : forall i j, lazy_edge c i j -> i = t /\ j = g).
  { intros i j (e & k & G & I). unfold c in G. cbn [node_get] in G. destruct (tident_eq_dec i t) as [->|].
    - injection G as <-. destruct I as [[= <- <-]|[]]. auto.
    - destruct (tident_eq_dec i g); [|discriminate]. injection G as <-. destruct I. }
  assert (S : forall i j, steps (lazy_edge c) i j -> i = t /\ j = g).
  { induction 1 as [i j H|i j k H S [-> ->]]; [apply E, H|]. apply E in H. destruct H as [_ H]. discriminate. }
  intros i X. apply S in X. destruct X as [-> X]. discriminate.
Qed.
