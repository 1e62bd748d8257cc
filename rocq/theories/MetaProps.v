(** C28, C29: resolving and comparing types. *)
From Verif Require Import MetaModel MetaSpec MetaProofs.
Local Open Scope string_scope.

(** Resolution ends on every map of types, loops included: the fuel of the model, one
    more than the number of types, is never used up. *)
Theorem C28_terminates : forall ts i, get_resolved_impl (S (length ts)) ts i [] <> None.
Proof. exact never_out. Qed.
Print Assumptions C28_terminates.

(** An identifier has no result exactly if there is no such type; otherwise the result
    is a type of the map that the identifier leads to, and if that is again a plain type
    definition, then its target is missing or leads back to it. *)
Theorem C28_result : forall ts i,
  (get_resolved ts i = None <-> lookup i ts = None) /\
  forall b ty, get_resolved ts i = Some (b, ty) ->
    leads ts i b /\ lookup b ts = Some ty /\
    forall c, plain_step ts b c -> lookup c ts = None \/ leads ts c b.
Proof. intros ts i. split; [apply resolved_none|intros b ty; apply resolved_spec]. Qed.
Print Assumptions C28_result.

(** If an identifier leads to a type that is not a plain definition (or whose target is
    missing), that type is the result. *)
Theorem C28_unique : forall ts i b ty, leads ts i b -> lookup b ts = Some ty ->
  (forall c, plain_step ts b c -> lookup c ts = None) -> get_resolved ts i = Some (b, ty).
Proof. exact resolved_complete. Qed.
Print Assumptions C28_unique.

(** Without loops, resolving twice is resolving once. *)
Theorem C28_idempotent_partial : forall ts i b ty, no_loops ts ->
  get_resolved ts i = Some (b, ty) -> get_resolved ts b = Some (b, ty).
Proof. exact resolved_idem. Qed.
Print Assumptions C28_idempotent_partial.

Definition ex_id (s : string) : tident := TIdent 1 0 (Named s) ITType.
Definition ex_ref (s : string) : mtype := mtype_new (VReference (ref_new (ex_id s))).
Definition ex_types : types :=
  [(ex_id "a", ex_ref "b"); (ex_id "b", ex_ref "c"); (ex_id "c", mtype_new (VBuildIn BString));
   (ex_id "x", ex_ref "y"); (ex_id "y", ex_ref "x")].

Example C28_case : get_resolved ex_types (ex_id "a") = Some (ex_id "c", mtype_new (VBuildIn BString)) /\
  leads ex_types (ex_id "a") (ex_id "c") /\ get_resolved ex_types (ex_id "x") = Some (ex_id "y", ex_ref "x").
Proof.
  split; [reflexivity|]. split; [|reflexivity].
  eapply leads_step; [exists (ex_ref "b"); split; reflexivity|].
  eapply leads_step; [exists (ex_ref "c"); split; reflexivity|]. constructor.
Qed.

(** With a loop the resolved identifier itself resolves to something else. *)
Theorem C28_idempotent_refuted : exists ts i b ty,
  get_resolved ts i = Some (b, ty) /\ get_resolved ts b <> Some (b, ty).
Proof. exists ex_types, (ex_id "x"), (ex_id "y"), (ex_ref "x"). split; [reflexivity|discriminate]. Qed.
Print Assumptions C28_idempotent_refuted.

(** Two types are equal exactly if they are the same up to resolving the identifiers in
    them and can be compared. *)
Theorem C29_meaning : forall ts a b,
  type_eq ts a b = true <-> same_structure ts a b /\ comparable (m_variant a).
Proof. exact type_eq_spec. Qed.
Print Assumptions C29_meaning.

Theorem C29_symmetric : forall ts a b, type_eq ts a b = type_eq ts b a.
Proof.
  intros ts a b. apply Bool.eq_iff_eq_true. rewrite !type_eq_spec.
  split; intros [[D E] C]; (split; [split; congruence|]);
    [apply (same_comparable ts a b)|apply (same_comparable ts b a)]; try split; assumption.
Qed.
Print Assumptions C29_symmetric.

Theorem C29_transitive : forall ts a b c, type_eq ts a b = true -> type_eq ts b c = true -> type_eq ts a c = true.
Proof.
  intros ts a b c. rewrite !type_eq_spec. intros [[D E] C] [[D' E'] _]. split; [split; congruence|exact C].
Qed.
Print Assumptions C29_transitive.

(** Equal types have equal hashes. *)
Theorem C29_hash : forall ts a b, type_eq ts a b = true -> type_hash ts a = type_hash ts b.
Proof. intros ts a b H. apply type_eq_spec in H. apply hash_spec, H. Qed.
Print Assumptions C29_hash.

(** Every type without text elements that is not a custom type equals itself.
    Missing: those (below). *)
Theorem C29_reflexive_partial : forall ts a, comparable (m_variant a) -> type_eq ts a a = true.
Proof. intros ts a C. apply type_eq_spec. split; [split; reflexivity|exact C]. Qed.
Print Assumptions C29_reflexive_partial.

(** A custom type and a group with a text element are not equal to themselves. *)
Theorem C29_reflexive_refuted : forall ts a,
  (exists c, m_variant a = VCustom c) \/
  (exists g e, (m_variant a = VAll g \/ m_variant a = VChoice g \/ m_variant a = VSequence g) /\
     In e (gr_elements g) /\ el_variant e = EVText) ->
  type_eq ts a a = false.
Proof.
  intros ts a H. destruct (type_eq ts a a) eqn:E; [|reflexivity]. exfalso. apply type_eq_spec in E. destruct E as [_ C].
  destruct H as [[c E]|(g & e & [E|[E|E]] & I & T)]; rewrite E in C; cbn in C; [exact C| | |];
    rewrite Forall_forall in C; exact (C _ I T).
Qed.
Print Assumptions C29_reflexive_refuted.

Example C29_case :
  type_eq ex_types (ex_ref "a") (ex_ref "b") = true /\ ex_ref "a" <> ex_ref "b" /\
  type_eq ex_types (ex_ref "a") (ex_ref "x") = false.
Proof. repeat split; try reflexivity. discriminate. Qed.
