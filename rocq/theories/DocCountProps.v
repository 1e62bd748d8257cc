(** C82: no element of a document is lost, and none is invented. *)
From Verif Require Import Utf8 DocModel DocCountSpec GenProps DocProps DocCountProofs.
Local Open Scope string_scope.
Local Open Scope list_scope.

(** For every schema and every document that is read: the value has as many elements of
    every name as there are tags that begin one inside the root element, up to the event
    after which the value is returned. *)
Theorem C82_elements_kept : forall (T A : Type) blank ff (no_attrs : A) attrs_of
    (parse : nat -> dhelper -> bytes -> outcome kind (T * dhelper)) charref utf8_ok env n ty evs v rest,
  driver_run (type_deser ff no_attrs attrs_of parse charref utf8_ok env n ty) blank driver_new evs = RDone v rest ->
  exists done, evs = done ++ rest /\ existsb is_tag done = true /\
    forall x, elements_named ff x env n ty v = tags_named x (after_root done).
Proof. intros. eapply documents_counted; eassumption. Qed.
Print Assumptions C82_elements_kept.

(** In particular an element that the schema does not know is never passed over. *)
Theorem C82_unknown_elements : forall (T A : Type) blank ff (no_attrs : A) attrs_of
    (parse : nat -> dhelper -> bytes -> outcome kind (T * dhelper)) charref utf8_ok env n ty evs v rest x,
  unknown_name x env ->
  driver_run (type_deser ff no_attrs attrs_of parse charref utf8_ok env n ty) blank driver_new evs = RDone v rest ->
  exists done, evs = done ++ rest /\ tags_named x (after_root done) = 0.
Proof.
  intros T A blank ff no_attrs attrs_of parse charref utf8_ok env n ty evs v rest x U H.
  destruct (documents_counted _ _ _ _ _ _ _ _ _ _ _ _ _ H) as (done & E & _ & Q).
  exists done. split; [exact E|]. rewrite <- Q. apply unknown_zero. exact U.
Qed.
Print Assumptions C82_unknown_elements.

(** The order of C72, with two pairs of an item and a price. *)
Definition order_pairs : list event :=
  [EComment "x"; EStart "order" []] ++
  (ex_el "customer" "c" ++ (ex_el "item" "i" ++ ex_el "price" "1") ++ (ex_el "item" "j" ++ ex_el "price" "2") ++ ex_el "date" "d") ++
  [EEnd "order"].
Example C82_order : exists v, read flat order_env 2 0 order_pairs = RDone v [] /\
  elements_named flat "item" order_env 2 0 v = 2 /\ elements_named flat "customer" order_env 2 0 v = 1 /\
  elements_named flat "note" order_env 2 0 v = 0 /\ tags_named "item" (after_root order_pairs) = 2.
Proof. eexists. split; [vm_compute; reflexivity|]. repeat split. Qed.
Example C82_order_nested : exists v, read nested order_env 2 0 order_pairs = RDone v [] /\
  elements_named nested "item" order_env 2 0 v = 2 /\ elements_named nested "price" order_env 2 0 v = 2.
Proof. eexists. split; [vm_compute; reflexivity|]. repeat split. Qed.
Example C82_order_unknown : unknown_name "extra" order_env.
Proof. intros [|[|ty]]; exact I || reflexivity. Qed.
