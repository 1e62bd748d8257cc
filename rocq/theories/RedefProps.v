(** C88: redefined and overridden components. *)
From Verif Require Import Base IdentModel CacheSpec CacheProofs.
From Verif Require Import RedefModel RedefSpec RedefProofs RedefLoopProofs.
From Verif Require CacheModel NodeModel.
Import CacheModel (order, Order, DInclude, DImport, DOverride, DRedefine, OpInsert, OpSchema, OpDependency).
Local Open Scope string_scope.
Local Open Scope list_scope.

(** When the components of a redefinition (or of an override) have been added, the references are redirected: this
    ends, whatever the order of the hash tables; every component that refers to a redefined one, directly or through
    others, has a copy in the redefining schema; and no component that this schema works with refers to a replaced one.
    Missing: components that refer to themselves, inline components that refer to what is redefined, names
    used in several schemas or namespaces ([ready], [not_recursive], [closed]); see the refutations below. *)
Theorem C88_redirected_partial main ns redefined s o pick :
  ready main ns redefined s -> not_recursive main s -> any_order_of o -> any_pick pick ->
  exists bound s',
    (forall fuel set_fuel, bound <= fuel -> bound <= set_fuel -> resolve_dependencies fuel set_fuel o pick main s = Some s') /\
    redirected main redefined s s'.
Proof.
  intros A B C D. destruct (resolve_redirects main ns redefined s o pick A B C D) as (b & s' & E & F & _). exists b, s'. auto.
Qed.
Print Assumptions C88_redirected_partial.

Theorem C88_pervasive_partial main ns redefined s o pick :
  ready main ns redefined s -> not_recursive main s -> closed main ns redefined s -> any_order_of o -> any_pick pick ->
  exists bound, forall fuel set_fuel, bound <= fuel -> bound <= set_fuel ->
    exists s', resolve_dependencies fuel set_fuel o pick main s = Some s' /\ pervasive main (s_hist s') redefined (s_nodes s').
Proof.
  intros A B CL C D. destruct (resolve_redirects main ns redefined s o pick A B C D) as (b & s' & E & _ & F). exists b.
  intros fuel set_fuel L L'. exists s'. auto.
Qed.
Print Assumptions C88_pervasive_partial.

(** * Schemas *)
Definition ex_order : order := Order (fun l => l) (fun l => l) (fun l => l).
Lemma ex_order_any : any_order_of ex_order.
Proof. repeat split; intros; apply Permutation.Permutation_refl. Qed.
Definition ex_pick (l : list tident) : option tident := match l with x :: _ => Some x | [] => None end.
Lemma ex_pick_any : any_pick ex_pick.
Proof. intros [|x l]; cbn; auto. Qed.
Definition ex_run := create_node_cache 60 ex_order ex_pick.

Definition ty (s : nat) (n : string) : tident := TIdent 1 s (Named n) ITType.
Definition el (s : nat) (n : string) : tident := TIdent 1 s (Named n) ITElement.
(** References in the namespace. *)
Definition of_type (n : string) : NodeModel.part := NodeModel.PRef NodeModel.RType (1, n).
Definition extends (n : string) : NodeModel.part := NodeModel.PRef NodeModel.RBase (1, n).
Definition to_element (n : string) : NodeModel.part := NodeModel.PRef NodeModel.RElement (1, n).
Definition a_type (n : string) (l : list NodeModel.part) : named_comp := (NodeModel.NComplexType, n, NodeModel.PInside l).
Definition an_element (n : string) (l : list NodeModel.part) : named_comp := (NodeModel.NElement, n, NodeModel.PInside l).

(** The schemas of tests/feature/redefine. *)
Definition person_base : doc := Doc 1 1 []
  [CComponent (a_type "GenderType" []);
   CComponent (a_type "PersonType" [of_type "GenderType"]);
   CComponent (an_element "Person" [of_type "PersonType"])].
Definition person_redefined : doc := Doc 2 1 [DRedefine 1]
  [CRedefine 1 [a_type "PersonType" [extends "PersonType"]];
   CComponent (a_type "AdvancedPersonsType" [to_element "Person"]);
   CComponent (an_element "AdvancedPersons" [of_type "AdvancedPersonsType"])].

(** The state in which the references are redirected. *)
Definition person_state : option rstate :=
  match process_schema 60 ex_order ex_pick [person_base; person_redefined] 5 1
          ([], create_ident_cache [person_base; person_redefined], []) with
  | Some (n, h, _) =>
      option_map (fun x => RState (fst x) (snd x) [ty 1 "PersonType"])
        (new_entries 60 ex_order 1 2 (Some 1) [a_type "PersonType" [extends "PersonType"]]
          (n, h ++ [OpSchema 1 2; OpDependency 2 (DRedefine 1)]))
  | None => None
  end.

Ltac ops := cbv [inserted] in *; cbn in *;
  repeat match goal with
  | H : _ \/ _ |- _ => destruct H
  | H : False |- _ => destruct H
  | H : @eq CacheModel.cache_op _ _ |- _ => first [discriminate H | injection H; intros; subst; clear H]
  end.


Definition person_ready : rstate := RState
  [(ty 1 "GenderType", REntry NodeModel.NComplexType [] None);
   (ty 1 "PersonType", REntry NodeModel.NComplexType
      [(NodeModel.KNamed 1 ITType "GenderType", NodeModel.Weak (ty 1 "GenderType"))] None);
   (el 1 "Person", REntry NodeModel.NElement
      [(NodeModel.KNamed 1 ITType "PersonType", NodeModel.Weak (ty 1 "PersonType"))] None);
   (ty 2 "PersonType", REntry NodeModel.NComplexType
      [(NodeModel.KNamed 1 ITType "PersonType", NodeModel.Strong (ty 1 "PersonType"))] (Some (ty 1 "PersonType")))]
  (create_ident_cache [person_base; person_redefined] ++
   [OpSchema 1 1; OpInsert (ty 1 "GenderType"); OpInsert (ty 1 "PersonType"); OpInsert (el 1 "Person");
    OpSchema 1 2; OpDependency 2 (DRedefine 1); OpInsert (ty 2 "PersonType")])
  [ty 1 "PersonType"].

Lemma person_inserted u : inserted (s_hist person_ready) u ->
  In u [ty 1 "GenderType"; ty 1 "PersonType"; el 1 "Person"; ty 2 "PersonType"; ty 2 "AdvancedPersonsType"; el 2 "AdvancedPersons"].
Proof. intros H. ops; cbn; auto 10. Qed.
Lemma person_visible x : visible 2 (s_hist person_ready) x ->
  In x [ty 1 "GenderType"; el 1 "Person"; ty 2 "PersonType"; ty 2 "AdvancedPersonsType"; el 2 "AdvancedPersons"].
Proof.
  intros (N & (u & (I & _) & T) & H). pose proof (person_inserted u I) as J.
  assert (x = u) as -> by (apply named_same; [exact N| |exact T]; cbn in J; repeat (destruct J as [<-|J]; [eexists; reflexivity|]); destruct J).
  cbn in *. repeat (destruct J as [<-|J]; [try solve [auto 10]|]); [|destruct J]. exfalso.
  destruct H as [H|H]; [discriminate|]. apply (H (ty 2 "PersonType")); try reflexivity.
  split; [cbn; auto 20|]. split; [discriminate|constructor].
Qed.
Lemma person_points x t : points (s_nodes person_ready) x t ->
  (x, t) = (ty 1 "PersonType", ty 1 "GenderType") \/ (x, t) = (el 1 "Person", ty 1 "PersonType") \/
  (x, t) = (ty 2 "PersonType", ty 1 "PersonType").
Proof.
  intros (e & k & d & G & I & E). cbn in G.
  repeat match type of G with (if ?c then _ else _) = _ => destruct c as [->|_]; [injection G as <-; cbn in *|] end; [| | | |discriminate].
  all: repeat (destruct I as [[= <- <-]|I]); try destruct I; cbn in *; subst; auto.
Qed.
Lemma person_reach u : In u [ty 1 "GenderType"; el 1 "Person"; ty 1 "PersonType"] -> in_reach (s_hist person_ready) 2 u.
Proof.
  intros I. split; [cbn in *; repeat (destruct I as [<-|I]; [auto 20|]); destruct I|].
  assert (ti_schema u = 1) as -> by (cbn in *; repeat (destruct I as [<-|I]; [reflexivity|]); destruct I).
  split; [discriminate|]. apply reaches_dep with 1; [|constructor].
  exists (doc_ops person_base ++ [OpSchema 1 2]), (DRedefine 1). eexists. exists 1.
  split; [reflexivity|]. split; [|reflexivity]. left. cbn. auto 10.
Qed.

Example C88_case : person_state = Some person_ready /\
  ready 2 1 [ty 1 "PersonType"] person_ready /\ not_recursive 2 person_ready /\ closed 2 1 [ty 1 "PersonType"] person_ready.
Proof.
  split; [vm_compute; reflexivity|].
  assert (A : forall x, affected 2 person_ready x -> x = el 1 "Person").
  { induction 1 as [x t V S F Q]. apply person_points in F as [F|[F|F]]; injection F as -> ->; [|reflexivity|exfalso; apply S; reflexivity].
    apply person_visible in V. cbn in V. repeat (destruct V as [V|V]; [discriminate|]). destruct V. }
  split; [|split].
  - constructor.
    + split; [discriminate|]. left. cbn. auto 10.
    + intros a n n' P P'. assert (H : forall m, places (s_hist person_ready) a m -> m = 1); [|rewrite (H n P), (H n' P'); reflexivity].
      clear. intros m [P|(t & T & E & N & Z)]; [ops; auto|]. apply person_inserted in T. cbn in T.
      repeat (destruct T as [<-|T]; [auto|]). destruct T.
    + intros u v (U & _) (W & _) K. apply person_inserted in U, W. cbn in U, W.
      destruct U as [<-|[<-|[<-|[<-|[<-|[<-|[]]]]]]], W as [<-|[<-|[<-|[<-|[<-|[<-|[]]]]]]]; try discriminate K;
        (split; [reflexivity|intros S1 S2; try (exfalso; apply S1; reflexivity); try (exfalso; apply S2; reflexivity); repeat split]).
    + intros x X. rewrite (A x X). reflexivity.
    + intros i e G. cbn in G. cbv [inserted]. cbn.
      repeat match type of G with (if ?c then _ else _) = _ => destruct c as [->|_]; [auto 20|] end. discriminate.
    + intros i t N F _. apply person_points in F as [F|[F|F]]; injection F as -> ->; apply N; eexists; reflexivity.
    + intros i e G. cbn in G.
      repeat match type of G with (if ?c then _ else _) = _ => destruct c as [->|_]; [injection G as <-; cbn; split; repeat constructor; auto|] end.
      discriminate.
    + intros i e V S G. apply person_visible in V. cbn in V.
      repeat (destruct V as [<-|V]; [cbn in *; try congruence; injection G as <-; reflexivity|]). destruct V.
    + intros i e t S G B F. apply person_points in F as [F|[F|F]]; injection F as -> ->; try discriminate S. split; [left; reflexivity|reflexivity].
    + intros t e [<-|[]] G. injection G as <-. reflexivity.
    + intros i [<-|[]]. split; [eexists; reflexivity|]. split; [discriminate|]. cbn. auto 20.
    + split; [repeat constructor; cbn; auto|]. intros i I. exact I.
  - intros i _ F. apply person_points in F as [F|[F|F]]; injection F as E1 E2; rewrite E1 in E2; discriminate E2.
  - intros x t V [F NR]. apply person_points in F as [F|[F|F]]; injection F as -> ->;
      [|left; cbn; auto|exfalso; apply NR; split; [left; reflexivity|reflexivity]].
    right. left. split; [eexists; reflexivity|]. split.
    + exists (ty 1 "GenderType"). split; [apply person_reach; cbn; auto|repeat split].
    + right. intros u (U & _) _ K S. apply person_inserted in U. cbn in U. repeat (destruct U as [<-|U]; [discriminate|]). destruct U.
Qed.
(** The element has a copy: it is affected. *)
Example C88_case_affected : affected 2 person_ready (el 1 "Person").
Proof.
  apply affected_by with (ty 1 "PersonType"); [|discriminate| |left; cbn; auto].
  - split; [eexists; reflexivity|]. split; [exists (el 1 "Person"); split; [apply person_reach; cbn; auto|repeat split]|].
    right. intros u (U & _) _ K S. apply person_inserted in U. cbn in U. repeat (destruct U as [<-|U]; [discriminate|]). destruct U.
  - eexists. eexists. eexists. split; [reflexivity|]. split; [left; reflexivity|reflexivity].
Qed.
(** The whole run, as in the expected code of the test. *)
Example C88_case_run : exists n h, ex_run [person_base; person_redefined] = Some (n, h) /\
  rget (el 2 "Person") n = Some (REntry NodeModel.NElement
    [(NodeModel.KNamed 1 ITType "PersonType", NodeModel.Weak (ty 2 "PersonType"))] (Some (el 1 "Person"))) /\
  rget (ty 2 "AdvancedPersonsType") n = Some (REntry NodeModel.NComplexType
    [(NodeModel.KNamed 1 ITElement "Person", NodeModel.Weak (el 2 "Person"))] None) /\
  rget (el 1 "Person") n = Some (REntry NodeModel.NElement
    [(NodeModel.KNamed 1 ITType "PersonType", NodeModel.Weak (ty 1 "PersonType"))] None).
Proof. eexists. eexists. split; [vm_compute; reflexivity|]. vm_compute. auto. Qed.

(** * Where it fails *)
Ltac known := cbv [inserted]; repeat (first [left; reflexivity | right]).
Ltac refer := split; [eexists; eexists; eexists; split; [vm_compute; reflexivity|];
  first [split; [left; reflexivity|reflexivity] | split; [right; left; reflexivity|reflexivity]]
  | intros (? & ?); cbv in *; try discriminate; repeat match goal with H : _ \/ _ |- _ => destruct H | H : False |- _ => destruct H end; discriminate].
Ltac own := match goal with |- used _ _ _ _ ?x =>
  apply used_visible; split; [eexists; reflexivity|]; split;
  [exists x; split; [split; [known|split; [discriminate|apply reaches_self]]|repeat split]|left; reflexivity] end.
Ltac replace_by u := split; [discriminate|]; exists u; split; [known|repeat split].
Ltac run := eexists; eexists; split; [vm_compute; reflexivity|]; intros P.

Definition redefine_person : content := CRedefine 1 [a_type "PersonType" [extends "PersonType"]].

(** A local element with a type of its own (no name) that uses the redefined type keeps the old one. *)
Definition anonymous_base : doc := Doc 1 1 []
  [CComponent (a_type "PersonType" []);
   CComponent (a_type "PersonsType"
     [NodeModel.PInline NodeModel.NElement 1 (TIdent 1 1 (Generated "PersonsPerson") ITElement) [extends "PersonType"]])].
Definition anonymous_redefined : doc := Doc 2 1 [DRedefine 1] [redefine_person; CComponent (an_element "Persons" [of_type "PersonsType"])].
Theorem C88_anonymous_refuted : exists n h,
  ex_run [anonymous_base; anonymous_redefined] = Some (n, h) /\ ~ pervasive 2 h [ty 1 "PersonType"] n.
Proof.
  run. apply (P (TIdent 1 1 (Generated "PersonsPerson") ITElement) (ty 1 "PersonType")).
  - apply used_next with (ty 1 "PersonsType"); [|refer]. apply used_next with (el 2 "Persons"); [own|refer].
  - refer.
  - replace_by (ty 2 "PersonType").
Qed.
Print Assumptions C88_anonymous_refuted.

(** A type that refers to itself and to a redefined one: its copy refers to the original. *)
Definition recursive_base : doc := Doc 1 1 []
  [CComponent (a_type "PersonType" []); CComponent (a_type "TreeType" [of_type "PersonType"; of_type "TreeType"])].
Definition recursive_redefined : doc := Doc 2 1 [DRedefine 1] [redefine_person; CComponent (an_element "Tree" [of_type "TreeType"])].
Theorem C88_recursive_refuted : exists n h,
  ex_run [recursive_base; recursive_redefined] = Some (n, h) /\ ~ pervasive 2 h [ty 1 "PersonType"] n /\
  option_map r_deps (rget (ty 2 "TreeType") n) =
    Some [(NodeModel.KNamed 1 ITType "PersonType", NodeModel.Weak (ty 2 "PersonType"));
          (NodeModel.KNamed 1 ITType "TreeType", NodeModel.Weak (ty 1 "TreeType"))].
Proof.
  eexists. eexists. split; [vm_compute; reflexivity|]. split; [|vm_compute; reflexivity]. intros P.
  apply (P (ty 2 "TreeType") (ty 1 "TreeType")).
  - own.
  - refer.
  - replace_by (ty 2 "TreeType").
Qed.
Print Assumptions C88_recursive_refuted.

(** A schema that is included after the redefinition refers to the old type. *)
Definition included_doc : doc := Doc 3 1 [DInclude 1] [CInclude 1; CComponent (a_type "TeamType" [of_type "PersonType"])].
Definition included_after : doc := Doc 2 1 [DRedefine 1; DInclude 3]
  [redefine_person; CInclude 3; CComponent (an_element "Team" [of_type "TeamType"])].
Definition included_before : doc := Doc 2 1 [DRedefine 1; DInclude 3]
  [CInclude 3; redefine_person; CComponent (an_element "Team" [of_type "TeamType"])].
Theorem C88_order_refuted : exists n h,
  ex_run [included_after; person_base; included_doc] = Some (n, h) /\ ~ pervasive 2 h [ty 1 "PersonType"] n.
Proof.
  run. apply (P (ty 3 "TeamType") (ty 1 "PersonType")).
  - apply used_next with (el 2 "Team"); [own|refer].
  - refer.
  - replace_by (ty 2 "PersonType").
Qed.
Print Assumptions C88_order_refuted.
(** It refers to the new one if it is included before. *)
Example C88_order_before : exists n h, ex_run [included_before; person_base; included_doc] = Some (n, h) /\
  option_map r_deps (rget (el 2 "Team") n) = Some [(NodeModel.KNamed 1 ITType "TeamType", NodeModel.Weak (ty 2 "TeamType"))] /\
  option_map r_deps (rget (ty 2 "TeamType") n) = Some [(NodeModel.KNamed 1 ITType "PersonType", NodeModel.Weak (ty 2 "PersonType"))].
Proof. eexists. eexists. split; [vm_compute; reflexivity|]. vm_compute. auto. Qed.

(** A type that the redefined schema itself includes: nothing is redirected, and the redefinition
    extends a type that does not exist. *)
Definition including_base : doc := Doc 3 1 [DInclude 1] [CInclude 1].
Definition deep_redefined : doc := Doc 2 1 [DRedefine 3]
  [CRedefine 3 [a_type "PersonType" [extends "PersonType"]]; CComponent (an_element "Boss" [to_element "Person"])].
Theorem C88_included_refuted : exists n h,
  ex_run [person_base; including_base; deep_redefined] = Some (n, h) /\ ~ pervasive 2 h [ty 3 "PersonType"] n.
Proof.
  run. apply (P (el 1 "Person") (ty 1 "PersonType")).
  - apply used_next with (el 2 "Boss"); [own|refer].
  - refer.
  - replace_by (ty 2 "PersonType").
Qed.
Print Assumptions C88_included_refuted.
Theorem C88_included_missing : exists n h e,
  ex_run [person_base; including_base; deep_redefined] = Some (n, h) /\
  rget (ty 2 "PersonType") n = Some e /\
  r_deps e = [(NodeModel.KNamed 1 ITType "PersonType", NodeModel.Strong (ty 3 "PersonType"))] /\
  rget (ty 3 "PersonType") n = None.
Proof. do 3 eexists. split; [vm_compute; reflexivity|]. split; [vm_compute; reflexivity|]. vm_compute. auto. Qed.
Print Assumptions C88_included_missing.

(** A component of an imported namespace that has the name of an affected one: this one is not redirected. *)
Definition imported_doc : doc := Doc 3 2 [] [CComponent (an_element "Person" [])].
Definition import_redefined : doc := Doc 2 1 [DImport 3; DRedefine 1]
  [CImport 3; redefine_person; CComponent (an_element "Boss" [to_element "Person"])].
Theorem C88_import_refuted : exists n h,
  ex_run [person_base; imported_doc; import_redefined] = Some (n, h) /\ ~ pervasive 2 h [ty 1 "PersonType"] n.
Proof.
  run. apply (P (el 1 "Person") (ty 1 "PersonType")).
  - apply used_next with (el 2 "Boss"); [own|refer].
  - refer.
  - replace_by (ty 2 "PersonType").
Qed.
Print Assumptions C88_import_refuted.

(** Inside of a redefinition or an override all references to the own name lead to the old component:
    for an override all of them should lead to the new one, for a redefinition all but the base.  Moreover the reference to
    the base is no longer a strong one if there is another one after it. *)
Definition self_base : doc := Doc 1 1 [] [CComponent (a_type "TreeType" [])].
Definition self_override : doc := Doc 2 1 [DOverride 1] [COverride 1 [a_type "TreeType" [of_type "TreeType"]]].
Definition self_redefine : doc := Doc 2 1 [DRedefine 1] [CRedefine 1 [a_type "TreeType" [extends "TreeType"; of_type "TreeType"]]].
Theorem C88_override_self_refuted : exists n h, ex_run [self_base; self_override] = Some (n, h) /\ ~ pervasive 2 h [] n.
Proof.
  run. apply (P (ty 2 "TreeType") (ty 1 "TreeType")).
  - own.
  - refer.
  - replace_by (ty 2 "TreeType").
Qed.
Print Assumptions C88_override_self_refuted.
Theorem C88_redefine_self_refuted : exists n h,
  ex_run [self_base; self_redefine] = Some (n, h) /\
  option_map r_deps (rget (ty 2 "TreeType") n) = Some [(NodeModel.KNamed 1 ITType "TreeType", NodeModel.Weak (ty 1 "TreeType"))].
Proof. do 2 eexists. split; [vm_compute; reflexivity|]. vm_compute. reflexivity. Qed.
Print Assumptions C88_redefine_self_refuted.

(** A schema that relies on the inclusions of the including one: with an inclusion of the base its reference is
    found, with a redefinition it is ambiguous. *)
Definition sibling : doc := Doc 3 1 [] [CComponent (a_type "TeamType" [of_type "PersonType"])].
Theorem C88_sibling_refuted :
  (exists r, ex_run [Doc 2 1 [DInclude 1; DInclude 3] [CInclude 1; CInclude 3]; person_base; sibling] = Some r) /\
  ex_run [Doc 2 1 [DRedefine 1; DInclude 3] [redefine_person; CInclude 3]; person_base; sibling] = None.
Proof. split; [eexists|]; vm_compute; reflexivity. Qed.
Print Assumptions C88_sibling_refuted.
