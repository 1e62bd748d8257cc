(** C97: the constants for namespaces and prefixes, and the trait [WithNamespace]. *)
From Coq Require Import Lia.
From Verif Require Import NsConstModel NsConstSpec NsConstProofs.
Local Open Scope string_scope.

(** Each namespace gets one constant, with exactly the bytes of the namespace, whatever
    they are; all other generated code that asks for the constant of the namespace gets
    the identifier of that one; and there is no other constant.  [_partial]: for printable
    prefixes and names that differ when they are written in capitals. *)
Theorem C97_namespaces_partial : forall screaming ident_ok infos types,
  all_printable infos -> 0 < types ->
  (forall n, In n (ns_names screaming infos) -> ident_ok n = true) -> NoDup (ns_names screaming infos) ->
  exists l, ns_constants screaming ident_ok infos types = Ok l /\ NoDup (map fst l) /\
    length l = length (filter has_namespace infos) /\
    (forall i, In i infos -> ni_namespace i = None -> make_ns_const screaming ident_ok (prepare_module i) = None) /\
    forall i u, In i infos -> ni_namespace i = Some u ->
      make_ns_const screaming ident_ok (prepare_module i) = Some (Ok (ns_name screaming i)) /\
      lookup (ns_name screaming i) l = Some u.
Proof.
  intros screaming ok infos n P N V D. rewrite ns_rendered by assumption.
  assert (V' : forallb ok (ns_names screaming infos) = true) by (apply forallb_forall; exact V). rewrite V'.
  eexists. split; [reflexivity|]. rewrite ns_keys. split; [exact D|]. split; [now rewrite map_length|].
  split; [intros i _ E; unfold make_ns_const; cbn [mo_namespace prepare_module]; now rewrite E|].
  intros i u I E. assert (F : In i (filter has_namespace infos)).
  { apply filter_In. split; [exact I|]. unfold has_namespace. now rewrite E. }
  split.
  - rewrite (ns_path screaming ok i u) by (try exact E; intros p; now apply P). unfold format_ident.
    rewrite V; [reflexivity|]. apply in_map. exact F.
  - apply lookup_in; [now rewrite ns_keys|]. apply in_map_iff. exists i. split; [|exact F]. unfold ns_pair. now rewrite E.
Qed.
Print Assumptions C97_namespaces_partial.

(** The generated constants compile, i.e. none is defined twice, exactly if the names of
    the namespaces differ when they are written in capitals; the generator panics exactly
    if one of them is no identifier. *)
Theorem C97_compiles_partial : forall screaming ident_ok infos types,
  all_printable infos -> 0 < types ->
  (ns_constants screaming ident_ok infos types = Panic <-> exists n, In n (ns_names screaming infos) /\ ident_ok n = false) /\
  (prefix_constants screaming ident_ok infos types = Panic <-> exists n, In n (prefix_names screaming infos) /\ ident_ok n = false) /\
  (forall l, ns_constants screaming ident_ok infos types = Ok l -> (NoDup (map fst l) <-> NoDup (ns_names screaming infos))) /\
  (forall l, prefix_constants screaming ident_ok infos types = Ok l -> (NoDup (map fst l) <-> NoDup (prefix_names screaming infos))).
Proof.
  intros screaming ok infos n P N. rewrite ns_rendered, prefix_rendered by assumption.
  assert (H : forall l, forallb ok l = false <-> exists x, In x l /\ ok x = false).
  { induction l as [|a l IH]; cbn; [split; [discriminate|intros (x & [] & _)]|].
    destruct (ok a) eqn:A; cbn.
    - rewrite IH. split; intros (x & I & E); exists x; [auto|]. destruct I as [<-|I]; [congruence|auto].
    - split; [eauto|auto]. }
  split; [|split; [|split]].
  - rewrite <- H. destruct (forallb ok _); split; congruence.
  - rewrite <- H. destruct (forallb ok _); split; congruence.
  - intros l E. destruct (forallb ok _); [|discriminate]. injection E as <-. now rewrite ns_keys.
  - intros l E. destruct (forallb ok _); [|discriminate]. injection E as <-. now rewrite prefix_keys.
Qed.
Print Assumptions C97_compiles_partial.

(** Each namespace with a prefix or a name gets a constant for its prefix; its value is
    the prefix of the namespace, or its name if it has none.  No other code refers to a constant
    for a prefix that does not exist.  [_partial]: as above. *)
Theorem C97_prefixes_partial : forall screaming ident_ok infos types,
  all_printable infos -> 0 < types ->
  (forall n, In n (prefix_names screaming infos) -> ident_ok n = true) -> NoDup (prefix_names screaming infos) ->
  exists l, prefix_constants screaming ident_ok infos types = Ok l /\ NoDup (map fst l) /\
    (forall i n p u, In i infos -> ni_namespace i = Some u -> called i = Some n -> written_as i = Some p ->
      make_prefix_const screaming ident_ok (prepare_module i) = Some (Ok (prefix_name screaming n)) /\
      lookup (prefix_name screaming n) l = Some p) /\
    (forall i x, In i infos -> make_prefix_const screaming ident_ok (prepare_module i) = Some x ->
      exists n, x = Ok n /\ In n (map fst l)) /\
    (prefixes_differ infos -> NoDup (map snd l)).
Proof.
  intros screaming ok infos n P N V D. rewrite prefix_rendered by assumption.
  assert (V' : forallb ok (prefix_names screaming infos) = true) by (apply forallb_forall; exact V). rewrite V'.
  eexists. split; [reflexivity|]. rewrite prefix_keys. split; [exact D|]. split; [|split].
  - intros i x p u I E C W. assert (B : has_namespace i = true) by (unfold has_namespace; now rewrite E). split.
    + unfold make_prefix_const. rewrite prepared_name by (intros q; now apply P). rewrite C. cbn [mo_namespace prepare_module].
      rewrite E. unfold format_ident. fold (prefix_name screaming x). rewrite V; [reflexivity|].
      unfold prefix_names. apply in_flat_map. exists i. split; [exact I|]. rewrite C, B. now left.
    + apply lookup_in; [now rewrite prefix_keys|]. unfold prefix_pairs. apply in_flat_map. exists i. split; [exact I|].
      rewrite C, W, B. now left.
  - intros i x I. unfold make_prefix_const. rewrite prepared_name by (intros q; now apply P). cbn [mo_namespace prepare_module].
    destruct (ni_namespace i) as [u|] eqn:E; [|discriminate]. destruct (called i) as [c|] eqn:C; [|discriminate].
    assert (J : In (prefix_name screaming c) (prefix_names screaming infos)).
    { unfold prefix_names. apply in_flat_map. exists i. split; [exact I|]. rewrite C. unfold has_namespace. rewrite E. now left. }
    unfold format_ident. fold (prefix_name screaming c). rewrite (V _ J). intros [= <-]. eauto.
  - unfold prefixes_differ. intros H. replace (map snd (prefix_pairs screaming infos)) with
      (flat_map (fun i => match written_as i with Some p => if has_namespace i then [p] else [] | None => [] end) infos); [exact H|].
    clear. unfold prefix_pairs. induction infos as [|i l IH]; [reflexivity|]. cbn [flat_map]. rewrite map_app, <- IH. f_equal.
    assert (A : written_as i <> None -> called i <> None).
    { unfold written_as, called. destruct (ni_prefix i), (ni_module_name i); congruence. }
    destruct (written_as i), (called i); try (now destruct A); destruct (has_namespace i); reflexivity.
Qed.
Print Assumptions C97_prefixes_partial.

(** The types that are generated for a namespace tell its prefix and its URI, those
    outside of all namespaces tell neither; aliases, build-in and custom types and those of
    unknown namespaces have no implementation of the trait.  [_partial]: for printable
    prefixes and namespaces. *)
Theorem C97_trait_partial : forall infos, NoDup (map ni_id infos) -> all_printable infos ->
  (forall i u, In i infos -> ni_namespace i = Some u -> printable u ->
    with_namespace infos TOwn (ni_id i) = Some (ni_prefix i, Some u)) /\
  (forall i, In i infos -> ni_namespace i = None -> with_namespace infos TOwn (ni_id i) = Some (None, None)) /\
  (forall k ns, k <> TOwn \/ ~ In ns (map ni_id infos) -> with_namespace infos k ns = None).
Proof.
  intros infos D P. split; [|split].
  - intros i u I E U. unfold with_namespace, trait_results. rewrite (found infos i D I). cbn [mo_prefix mo_namespace prepare_module].
    rewrite E, (format_printable u U). destruct (ni_prefix i) as [p|] eqn:Q; [|reflexivity]. cbn.
    now rewrite (format_printable p (P i p I Q)).
  - intros i I E. unfold with_namespace, trait_results. rewrite (found infos i D I). cbn [mo_prefix mo_namespace prepare_module].
    rewrite E. now destruct (option_map _ _).
  - intros k ns [K|K]; [now destruct k|]. destruct k; try reflexivity. unfold with_namespace, trait_results.
    now rewrite (not_found infos ns K).
Qed.
Print Assumptions C97_trait_partial.

(** A catalog with a named module, one with a prefix, one with neither, and no namespace. *)
Definition shop : list ns_info :=
  [NsInfo 1 None None None; NsInfo 2 (Some "xs") (Some "http://www.w3.org/2001/XMLSchema") None;
   NsInfo 3 (Some "cat-v2") (Some "urn:catalog") None; NsInfo 4 (Some "p") (Some "urn:price") (Some "unitPrice");
   NsInfo 5 None (Some "urn:other") None; NsInfo 6 None (Some "urn:named") (Some "named")].
Example C97_case :
  all_printable shop /\ NoDup (map ni_id shop) /\ NoDup (ns_names screaming_ascii shop) /\ NoDup (prefix_names screaming_ascii shop) /\
  prefixes_differ shop /\ forallb ident_ascii (ns_names screaming_ascii shop ++ prefix_names screaming_ascii shop)%list = true /\
  ns_constants screaming_ascii ident_ascii shop 3 =
    Ok [("NS_XS", "http://www.w3.org/2001/XMLSchema"); ("NS_CAT_V_2", "urn:catalog"); ("NS_UNIT_PRICE", "urn:price");
        ("NS_UNNAMED_5", "urn:other"); ("NS_NAMED", "urn:named")] /\
  prefix_constants screaming_ascii ident_ascii shop 3 =
    Ok [("PREFIX_XS", "xs"); ("PREFIX_CAT_V_2", "cat-v2"); ("PREFIX_UNIT_PRICE", "p"); ("PREFIX_NAMED", "named")] /\
  ns_constants screaming_ascii ident_ascii shop 0 = Ok [] /\
  with_namespace shop TOwn 4 = Some (Some "p", Some "urn:price").
Proof.
  split.
  { intros i p I E. cbn in I. repeat destruct I as [<-|I]; try destruct I; cbn in E; try discriminate; injection E as <-;
      repeat split; try (apply Nat.leb_le; reflexivity); apply Nat.ltb_lt; reflexivity. }
  repeat split; try (vm_compute; reflexivity); vm_compute; repeat constructor; cbn; intuition discriminate.
Qed.

(** Prefixes that only differ in case or punctuation: the same constant is defined twice,
    for two namespaces, so that the generated code does not compile. *)
Theorem C97_clash_refuted : exists infos l,
  all_printable infos /\ NoDup (map ni_id infos) /\ NoDup (map ni_prefix infos) /\ NoDup (map ni_namespace infos) /\
  ns_constants screaming_ascii ident_ascii infos 1 = Ok l /\ ~ NoDup (map fst l).
Proof.
  exists [NsInfo 2 (Some "my-lib") (Some "urn:1") None; NsInfo 3 (Some "myLib") (Some "urn:2") None].
  eexists. split; [|split; [|split; [|split; [|split; [vm_compute; reflexivity|]]]]].
  - intros i p I E. cbn in I. repeat destruct I as [<-|I]; try destruct I; cbn in E; injection E as <-;
      repeat split; try (apply Nat.leb_le; reflexivity); apply Nat.ltb_lt; reflexivity.
  - repeat constructor; cbn; intuition discriminate.
  - repeat constructor; cbn; intuition discriminate.
  - repeat constructor; cbn; intuition discriminate.
  - intros D. inversion D as [|? ? N _]. apply N. now left.
Qed.
Print Assumptions C97_clash_refuted.

(** A prefix like [unnamed3] clashes with the constant of a namespace without prefix. *)
Theorem C97_unnamed_refuted : exists infos l,
  all_printable infos /\ NoDup (map ni_id infos) /\ NoDup (map ni_prefix infos) /\ NoDup (map ni_namespace infos) /\
  ns_constants screaming_ascii ident_ascii infos 1 = Ok l /\ ~ NoDup (map fst l).
Proof.
  exists [NsInfo 2 (Some "unnamed3") (Some "urn:1") None; NsInfo 3 None (Some "urn:2") None].
  eexists. split; [|split; [|split; [|split; [|split; [vm_compute; reflexivity|]]]]].
  - intros i p I E. cbn in I. repeat destruct I as [<-|I]; try destruct I; cbn in E; try discriminate; injection E as <-;
      repeat split; try (apply Nat.leb_le; reflexivity); apply Nat.ltb_lt; reflexivity.
  - repeat constructor; cbn; intuition discriminate.
  - repeat constructor; cbn; intuition discriminate.
  - repeat constructor; cbn; intuition discriminate.
  - intros D. inversion D as [|? ? N _]. apply N. now left.
Qed.
Print Assumptions C97_unnamed_refuted.

(** The prefix of a schema that is not ASCII is not what is written: each of its bytes
    has become a character of its own. *)
Theorem C97_prefix_refuted : exists p,
  forall screaming ident_ok, (forall s, ident_ok s = true) ->
    exists n w, prefix_constants screaming ident_ok [NsInfo 2 (Some p) (Some "urn:1") None] 1 = Ok [(n, w)] /\ w <> p.
Proof.
  exists (String "195" (String "164" EmptyString)). intros screaming ok H. do 2 eexists. split.
  - unfold prefix_constants. cbn. unfold format_ident. rewrite H. reflexivity.
  - vm_compute. discriminate.
Qed.
Print Assumptions C97_prefix_refuted.

(** Nor is the URI that the trait tells, although the constant is right. *)
Theorem C97_trait_refuted : exists u w,
  with_namespace [NsInfo 2 (Some "p") (Some u) None] TOwn 2 = Some (Some "p", Some w) /\ w <> u /\
  ns_constants screaming_ascii ident_ascii [NsInfo 2 (Some "p") (Some u) None] 1 = Ok [("NS_P", u)].
Proof.
  exists (String "u" (String ":" (String "195" (String "164" EmptyString)))). eexists.
  split; [vm_compute; reflexivity|]. split; [vm_compute; discriminate|vm_compute; reflexivity].
Qed.
Print Assumptions C97_trait_refuted.

(** A namespace without prefix that its user has named: the trait tells no prefix, although
    documents are written with one. *)
Theorem C97_trait_name_refuted : exists i p,
  prefix_constants screaming_ascii ident_ascii [i] 1 = Ok [("PREFIX_LIB", p)] /\
  with_namespace [i] TOwn (ni_id i) = Some (None, ni_namespace i).
Proof. exists (NsInfo 2 None (Some "urn:1") (Some "lib")), "lib". split; vm_compute; reflexivity. Qed.
Print Assumptions C97_trait_name_refuted.

(** The name that a user gives to a namespace may be the prefix of another namespace: both
    are written with it. *)
Theorem C97_shared_refuted : exists infos l,
  NoDup (map ni_id infos) /\ NoDup (map ni_namespace infos) /\ NoDup (map ni_module_name infos) /\
  prefix_constants screaming_ascii ident_ascii infos 1 = Ok l /\ NoDup (map fst l) /\ ~ NoDup (map snd l).
Proof.
  exists [NsInfo 2 (Some "a") (Some "urn:1") (Some "first"); NsInfo 3 None (Some "urn:2") (Some "a")].
  eexists. split; [|split; [|split; [|split; [vm_compute; reflexivity|split]]]];
    try (repeat constructor; cbn; intuition discriminate).
  intros D. inversion D as [|? ? N _]. apply N. now left.
Qed.
Print Assumptions C97_shared_refuted.

(** The name that a user gives to a namespace may be no prefix that XML allows. *)
Theorem C97_space_refuted :
  prefix_constants screaming_ascii ident_ascii [NsInfo 2 None (Some "urn:1") (Some "my lib")] 1 = Ok [("PREFIX_MY_LIB", "my lib")].
Proof. vm_compute. reflexivity. Qed.
Print Assumptions C97_space_refuted.
