(** C75: the generated deserializers keep the contract of the driver, so the namespaces
    they resolve names with are those of the document. *)
From Verif Require Import Utf8 DocModel GenSpec TextSpec DeSpec DocFrameProofs GenProps DocProps.
Local Open Scope string_scope.
Local Open Scope list_scope.

(** ** C75: the namespaces in scope inside generated types *)

(** Whatever a schema is and whatever comes: no call of a generated deserializer leaves a
    trace in the stack of namespaces, and an event that is handed back is the event that
    was given.  Attributes and texts are read by code that keeps the stack. *)
Theorem C75_contract : forall (T A : Type) ff (no_attrs : A) attrs_of
    (parse : nat -> dhelper -> bytes -> outcome kind (T * dhelper)) charref env,
  (forall ty h n a v h', attrs_of ty h n a = Ok (v, h') -> helper_ok h h') ->
  (forall ty h s v h', parse ty h s = Ok (v, h') -> helper_ok h h') ->
  forall n ty,
    respects (type_deser ff no_attrs attrs_of parse charref utf8_valid env n ty) /\
    gives_back (type_deser ff no_attrs attrs_of parse charref utf8_valid env n ty).
Proof. intros. apply type_frame; assumption. Qed.
Print Assumptions C75_contract.

(** While a document is read, after any number of its events: the namespaces and the
    resolution of prefixes are those of the elements that are open. *)
Theorem C75_scope : forall (T A : Type) ff (no_attrs : A) attrs_of
    (parse : nat -> dhelper -> bytes -> outcome kind (T * dhelper)) charref env,
  (forall ty h n a v h', attrs_of ty h n a = Ok (v, h') -> helper_ok h h') ->
  (forall ty h s v h', parse ty h s = Ok (v, h') -> helper_ok h h') ->
  forall n ty blank evs v,
  well_nested evs ->
  driver_run (type_deser ff no_attrs attrs_of parse charref utf8_valid env n ty) blank driver_new evs = RMore v ->
  (forall k ns, In (k, ns) (fst (namespaces (v_helper v))) <-> bound (filter_prefix (Some k)) ns (enclosing evs)) /\
  (forall p local attribute ns, split_colon (p ++ ":" ++ local)%string = Some (p, local) -> p <> "xml" -> p <> "xmlns" ->
     dh_resolve (d_res (v_helper v)) (p ++ ":" ++ local)%string attribute = (RBound ns, local) <->
     bound (Some p) ns (enclosing evs)).
Proof. intros. eapply run_scope; eauto. apply type_frame; assumption. Qed.
Print Assumptions C75_scope.

(** Inside [<order xmlns:x="u"><customer xmlns:y="w">c</customer><item xmlns:x="v">]. *)
Definition scope_doc : list event :=
  [EStart "order" [("xmlns:x", "u")]; EStart "customer" [("xmlns:y", "w")];
   EText "c"; EEnd "customer"; EStart "item" [("xmlns:x", "v")]].
Example C75_scope_case :
  (forall ty h n a v h', attrs_any ty h n a = Ok (v, h') -> helper_ok h h') /\
  (forall ty h s v h', parse_any ty h s = Ok (v, h') -> helper_ok h h') /\
  well_nested scope_doc /\
  (exists v, read flat order_env 4 0 scope_doc = RMore v /\
    fst (namespaces (v_helper v)) = [("x", "v")]).
Proof.
  split; [intros ty h n a v h' H; injection H as _ <-; apply DeProofs.helper_ok_refl|].
  split; [intros ty h s v h' H; injection H as _ <-; apply DeProofs.helper_ok_refl|].
  split.
  - intros p q E. repeat (destruct p as [|x p]; [reflexivity|injection E as <- E]).
    symmetry in E; apply app_eq_nil in E; destruct E as [-> _]; reflexivity.
  - eexists. split; [vm_compute; reflexivity|vm_compute; reflexivity].
Qed.
