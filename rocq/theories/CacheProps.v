(** C37, C38, C58: the identifier cache. *)
From Verif Require Import CacheModel CacheSpec CacheProofs.
Local Open Scope string_scope.

(** C37: for every history of calls in which a schema has one namespace and types belong to added
    schemas, and for every query, a type is returned exactly if one inserted type fits the query
    and all that fit are that one. *)
Theorem C37_found_partial h o q r : any_order_of o -> one_namespace h -> schemas_added h ->
  cache_resolve o (cache_run h) q = Ok r <->
  exists t, inserted h t /\ fits q t /\ (forall u, inserted h u -> fits q u -> same_type u t) /\
            r = ti_with_name t (ti_name q).
Proof.
  intros O ON SA. split.
  - intros E. destruct (resolve_cases h o q O ON SA) as [(F & _)|[(t & F & T & Ft & U)|(F & _)]]; rewrite F in E; try discriminate.
    injection E as <-. exists t. auto.
  - intros (t & T & Ft & U & ->).
    destruct (resolve_cases h o q O ON SA) as [(_ & N)|[(t' & F & T' & Ft' & U')|(_ & t1 & t2 & T1 & F1 & T2 & F2 & N)]].
    + destruct (N t T Ft).
    + rewrite F. f_equal. destruct (U t' T' Ft') as (A & B & C & D). destruct t, t'; cbn in *. unfold ti_with_name. cbn. congruence.
    + destruct N. destruct (U t1 T1 F1) as (A & B & C & D). destruct (U t2 T2 F2) as (A' & B' & C' & D').
      repeat split; congruence.
Qed.
Print Assumptions C37_found_partial.

(** C37: ... it is reported as unknown exactly if nothing inserted fits ... *)
Theorem C37_unknown_partial h o q : any_order_of o -> one_namespace h -> schemas_added h ->
  cache_resolve o (cache_run h) q = Err (UnknownType q) <-> forall t, inserted h t -> ~ fits q t.
Proof.
  intros O ON SA. destruct (resolve_cases h o q O ON SA) as [(F & N)|[(t & F & T & Ft & U)|(F & t & u & T & Ft & _)]];
    rewrite F; (split; [try discriminate; auto|]).
  - auto.
  - intros N. destruct (N t T Ft).
  - intros N. destruct (N t T Ft).
Qed.
Print Assumptions C37_unknown_partial.

(** C37: ... and as ambiguous exactly if two different inserted types fit. *)
Theorem C37_ambiguous_partial h o q : any_order_of o -> one_namespace h -> schemas_added h ->
  cache_resolve o (cache_run h) q = Err (AmbiguousType q) <->
  exists t u, inserted h t /\ fits q t /\ inserted h u /\ fits q u /\ ~ same_type t u.
Proof.
  intros O ON SA. destruct (resolve_cases h o q O ON SA) as [(F & N)|[(t & F & T & Ft & U)|(F & X)]];
    rewrite F; (split; [try discriminate; auto|]).
  - intros (t & _ & T & Ft & _). destruct (N t T Ft).
  - intros (t1 & t2 & T1 & F1 & T2 & F2 & N). destruct N.
    destruct (U t1 T1 F1) as (A & B & C & D). destruct (U t2 T2 F2) as (A' & B' & C' & D'). repeat split; congruence.
  - auto.
Qed.
Print Assumptions C37_ambiguous_partial.

(** C37: if all names come from schemas, the returned type is one that was inserted. *)
Theorem C37_exact_partial h o q r : any_order_of o -> one_namespace h -> schemas_added h ->
  (forall t, inserted h t -> named t) -> named q ->
  cache_resolve o (cache_run h) q = Ok r -> inserted h r /\ fits q r.
Proof.
  intros O ON SA NT (a & NQ) E. apply C37_found_partial in E as (t & T & F & _ & ->); [|assumption..].
  destruct (NT t T) as (b & NB). assert (X : ti_with_name t (ti_name q) = t).
  { destruct F as (_ & _ & _ & F). destruct t. unfold ti_with_name. cbn in *. rewrite NQ, NB in *. cbn in F. congruence. }
  rewrite X. auto.
Qed.
Print Assumptions C37_exact_partial.

(** C37: the variant that tolerates unknown types returns the query itself instead. *)
Theorem C37_allow_unknown_partial h o q : any_order_of o -> one_namespace h -> schemas_added h ->
  ((forall t, inserted h t -> ~ fits q t) -> cache_resolve_allow_unknown o (cache_run h) q = Ok q) /\
  ((exists t, inserted h t /\ fits q t) ->
   cache_resolve_allow_unknown o (cache_run h) q = cache_resolve o (cache_run h) q).
Proof.
  intros O ON SA. unfold cache_resolve_allow_unknown. split.
  - intros N. rewrite (proj2 (C37_unknown_partial h o q O ON SA) N). reflexivity.
  - intros (t & T & F). destruct (resolve_cases h o q O ON SA) as [(_ & N)|[(t' & E & _)|(E & _)]].
    + destruct (N t T F).
    + rewrite E. reflexivity.
    + rewrite E. reflexivity.
Qed.
Print Assumptions C37_allow_unknown_partial.

Definition ex_order : order := Order (fun l => l) (fun l => rev l) (fun l => rev l).
Definition ex_type ns s n := TIdent ns s (Named n) ITType.

Lemma ex_order_any : any_order_of ex_order.
Proof. split; [|split]; cbn; intros l; try reflexivity; apply Permutation_sym, Permutation_rev. Qed.

(** Without one namespace per schema the claim is false: the type returned is one nobody inserted. *)
Theorem C37_namespace_refuted :
  exists h o q r, any_order_of o /\ schemas_added h /\ (forall t, inserted h t -> named t) /\ named q /\
    cache_resolve o (cache_run h) q = Ok r /\ ~ inserted h r.
Proof.
  exists [OpSchema 2 1; OpInsert (ex_type 3 1 "A")], ex_order, (ex_type 0 0 "A"), (ex_type 2 1 "A").
  split; [exact ex_order_any|]. split; [|split; [|split; [|split]]].
  - intros t [E|[E|[]]]; [discriminate|]. injection E as <-. exists 2. left. reflexivity.
  - intros t [E|[E|[]]]; [discriminate|]. injection E as <-. exists "A". reflexivity.
  - exists "A". reflexivity.
  - reflexivity.
  - intros [E|[E|[]]]; discriminate.
Qed.
Print Assumptions C37_namespace_refuted.

(** Without adding the schema the claim is false: an inserted type is unknown to a query for its
    own namespace. *)
Theorem C37_schema_refuted :
  exists h o q t, any_order_of o /\ one_namespace h /\ inserted h t /\ fits q t /\
    cache_resolve o (cache_run h) q = Err (UnknownType q).
Proof.
  exists [OpInsert (ex_type 2 1 "A")], ex_order, (ex_type 2 0 "A"), (ex_type 2 1 "A").
  split; [exact ex_order_any|]. split; [|split; [left; reflexivity|split; [|reflexivity]]].
  - intros s n n' [[E|[]]|(t & [E|[]] & _ & _ & <-)] [[E'|[]]|(t' & [E'|[]] & _ & _ & <-)]; try discriminate.
    injection E as <-. injection E' as <-. reflexivity.
  - repeat split; cbn; auto.
Qed.
Print Assumptions C37_schema_refuted.

(** With generated names the returned type need not be one that was inserted. *)
Theorem C37_generated_refuted :
  exists h o q r, any_order_of o /\ one_namespace h /\ schemas_added h /\
    cache_resolve o (cache_run h) q = Ok r /\ ~ inserted h r.
Proof.
  exists [OpSchema 2 1; OpInsert (TIdent 2 1 (Generated "A") ITType)], ex_order, (ex_type 2 0 "A"), (ex_type 2 1 "A").
  split; [exact ex_order_any|]. split; [|split; [|split]].
  - intros s n n' [[E|[E|[]]]|(t & [E|[E|[]]] & _ & _ & <-)] [[E'|[E'|[]]]|(t' & [E'|[E'|[]]] & _ & _ & <-)];
      try discriminate; try (injection E as <-); try (injection E' as <-); cbn in *; congruence.
  - intros t [E|[E|[]]]; [discriminate|]. injection E as <-. exists 2. left. reflexivity.
  - reflexivity.
  - intros [E|[E|[]]]; discriminate.
Qed.
Print Assumptions C37_generated_refuted.

(** C38: the search ends on every dependency graph and never fails otherwise than by not finding
    the type; the recursion is never deeper than the number of calls made on the cache. *)
Theorem C38_ends h o s q fuel : any_order_of o -> one_namespace h -> length h < fuel ->
  (exists t, cache_resolve_for fuel o (cache_run h) s q = Ok t) \/
  cache_resolve_for fuel o (cache_run h) s q = Err (UnknownType q).
Proof.
  intros O ON L. destruct (resolve_for_cases h o s q fuel O ON L) as [(t & E & _)|(E & _)]; eauto.
Qed.
Print Assumptions C38_ends.

(** C38: a type is found exactly if one that fits is defined in a schema reachable from the given
    one, in one reachable from a global namespace, or in no schema at all. *)
Theorem C38_found h o s q fuel : any_order_of o -> one_namespace h -> length h < fuel ->
  (exists r, cache_resolve_for fuel o (cache_run h) s q = Ok r) <->
  exists t, (in_reach h s t \/ in_global h t \/ in_no_schema h t) /\ fits q t.
Proof.
  intros O ON L. destruct (resolve_for_cases h o s q fuel O ON L) as [(t & E & F & X)|(E & N)]; rewrite E; split.
  - intros _. exists t. split; [|exact F]. destruct X as [|(_ & [|(_ & X)])]; auto.
  - eauto.
  - intros (r & [=]).
  - intros (t & X & F). destruct (N t X F).
Qed.
Print Assumptions C38_found.

(** C38: what is returned is such a type; dependencies come before the global namespaces, and
    those before the types without a schema. *)
Theorem C38_sound h o s q fuel r : any_order_of o -> one_namespace h -> length h < fuel ->
  cache_resolve_for fuel o (cache_run h) s q = Ok r ->
  exists t, r = ti_with_name t (ti_name q) /\ fits q t /\
    (in_reach h s t \/
     (forall u, in_reach h s u -> ~ fits q u) /\
     (in_global h t \/ (forall u, in_global h u -> ~ fits q u) /\ in_no_schema h t)).
Proof.
  intros O ON L E. destruct (resolve_for_cases h o s q fuel O ON L) as [(t & E' & F & X)|(E' & N)]; rewrite E' in E; [|discriminate].
  injection E as <-. exists t. auto.
Qed.
Print Assumptions C38_sound.

(** C38: a type of the schema itself wins over all others. *)
Theorem C38_own h o s q fuel t : any_order_of o -> one_namespace h -> length h < fuel ->
  inserted h t -> ti_schema t = s -> s <> id_unknown -> fits q t ->
  cache_resolve_for fuel o (cache_run h) s q = Ok (ti_with_name t (ti_name q)).
Proof.
  intros O ON L T TS NZ F. pose proof (holds_run h) as H.
  assert (P : places h s (ti_ns t)) by (right; exists t; auto).
  destruct (ho_place _ _ H _ _ P) as (e & G). unfold cache_resolve_for.
  destruct fuel as [|fuel]; [lia|]. rewrite search_unfold. destruct (in_dec Nat.eq_dec s []) as [[]|_].
  rewrite G, (proj2 (entry_fits h _ s e q H ON G)); [|exists t; auto].
  rewrite (entry_ident h _ s e q t H ON G T F TS NZ). reflexivity.
Qed.
Print Assumptions C38_own.

(** Two schemas that include each other and a third one reachable from them. *)
Definition ex_history : list cache_op :=
  [ OpSchema 2 1; OpSchema 2 2; OpSchema 3 3; OpGlobal 4; OpSchema 4 4;
    OpDependency 1 (DInclude 2); OpDependency 2 (DInclude 1); OpDependency 2 (DImport 3);
    OpInsert (ex_type 2 1 "A"); OpInsert (ex_type 2 2 "B"); OpInsert (ex_type 3 3 "A");
    OpInsert (ex_type 3 3 "C"); OpInsert (ex_type 4 4 "string"); OpInsert (ex_type 4 0 "X") ].

Ltac ex_ops := cbv [ex_history inserted] in *; cbn in *;
  repeat match goal with
  | H : _ \/ _ |- _ => destruct H
  | H : False |- _ => destruct H
  | H : @eq cache_op _ _ |- _ => first [discriminate H | injection H; intros; subst; clear H]
  end.

Lemma ex_one_namespace : one_namespace ex_history.
Proof.
  intros s n n' [P|(t & T & E & N & Z)] [P'|(t' & T' & E' & N' & Z')]; subst; ex_ops; cbn in *; congruence.
Qed.
Lemma ex_schemas_added : schemas_added ex_history.
Proof.
  intros t T N. ex_ops; try congruence;
  first [exists 2; cbn; intuition; fail | exists 3; cbn; intuition; fail | exists 4; cbn; intuition; fail].
Qed.

Example C37_case :
  cache_resolve ex_order (cache_run ex_history) (ex_type 2 0 "A") = Ok (ex_type 2 1 "A") /\
  cache_resolve ex_order (cache_run ex_history) (ex_type 0 0 "A") = Err (AmbiguousType (ex_type 0 0 "A")) /\
  cache_resolve ex_order (cache_run ex_history) (ex_type 4 0 "X") = Ok (ex_type 4 0 "X") /\
  cache_resolve ex_order (cache_run ex_history) (ex_type 2 0 "C") = Err (UnknownType (ex_type 2 0 "C")).
Proof. vm_compute. auto. Qed.

Example C38_case :
  cache_resolve_for 20 ex_order (cache_run ex_history) 1 (ex_type 0 0 "C") = Ok (ex_type 3 3 "C") /\
  cache_resolve_for 20 ex_order (cache_run ex_history) 1 (ex_type 0 0 "string") = Ok (ex_type 4 4 "string") /\
  cache_resolve_for 20 ex_order (cache_run ex_history) 3 (ex_type 0 0 "B") = Err (UnknownType (ex_type 0 0 "B")).
Proof. vm_compute. auto. Qed.

(** C58: the identifiers visible from a schema are enumerated completely and once, on every
    dependency graph, and those of the schema itself hide those of its dependencies. *)
Theorem C58_schema_set h o s : any_order_of o -> one_namespace h ->
  exists n, forall fuel, n <= fuel -> exists l,
    schema_set fuel o (cache_run h) s = Some l /\
    NoDup (map kind_name l) /\
    (forall t, In t l -> named t /\ exists u, in_reach h s u /\ same_type t u) /\
    (forall u, in_reach h s u -> exists t, In t l /\ kind_name t = kind_name u /\ (ti_schema u = s -> ti_schema t = s)).
Proof. exact (schema_set_spec h o s). Qed.
Print Assumptions C58_schema_set.

Example C58_case :
  schema_set 50 ex_order (cache_run ex_history) 1 = Some [ex_type 2 1 "A"; ex_type 2 2 "B"; ex_type 3 3 "C"].
Proof. vm_compute. reflexivity. Qed.

(** The documentation says identifiers of included schemas are left out; they are not. *)
Theorem C58_include_refuted :
  exists h o s s' t l fuel, any_order_of o /\ one_namespace h /\
    In (OpDependency s (DInclude s')) h /\ (forall d, In (OpDependency s d) h -> d = DInclude s') /\
    schema_set fuel o (cache_run h) s = Some l /\ In t l /\ ti_schema t = s' /\ s' <> s.
Proof.
  exists [OpSchema 2 1; OpSchema 2 2; OpDependency 1 (DInclude 2); OpInsert (ex_type 2 2 "B")], ex_order, 1, 2,
    (ex_type 2 2 "B"), [ex_type 2 2 "B"], 20.
  split; [exact ex_order_any|]. split.
  - intros s n n' [P|(t & T & E & N & Z)] [P'|(t' & T' & E' & N' & Z')]; subst; ex_ops; cbn in *; congruence.
  - split; [right; right; left; reflexivity|]. split; [intros d D; ex_ops; reflexivity|].
    split; [vm_compute; reflexivity|]. split; [left; reflexivity|]. split; [reflexivity|discriminate].
Qed.
Print Assumptions C58_include_refuted.
