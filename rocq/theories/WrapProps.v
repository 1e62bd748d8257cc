(** Properties C14-C17 and C52: wrapped serializers and deserializers. *)
From Verif Require Import Utf8 SerHelperModel SerHelperSpec DeModel DeSpec ElementModel ElementSpec
  TextModel WrapModel WrapSpec WrapProofs TextProps.
Local Open Scope string_scope.

(** A serializer that just writes the given events, for examples. *)
Definition play (evs : list event) (h : helper) : option (outcome kind event) * list event * helper :=
  match evs with
  | [] => (None, [], h)
  | e :: evs' => (Some (Ok e), evs', h)
  end.

(** C16.  A list is written as its items one after the other (any item type, any
    item serializer); in the driver's terms and in both directions. *)
Theorem C16_items_concatenated : forall (I S : Type) (mk : I -> outcome kind S) (next : ser_next S) items h evs h',
  emits (iser_next mk next) (IPending items) h evs h' <-> items_written mk next items h evs h'.
Proof. intros. split; [apply (emits_rest mk next (IPending items))|apply iw_emits]. Qed.
Print Assumptions C16_items_concatenated.

(** The first error ends the output: exactly the events before it are written. *)
Theorem C16_first_error : forall (I S : Type) (mk : I -> outcome kind S) (next : ser_next S) items h evs k,
  emits_err (iser_next mk next) (IPending items) h evs k <-> items_failed mk next items h evs k.
Proof. intros. split; [apply (emits_err_rest mk next (IPending items))|apply if_emits]. Qed.
Print Assumptions C16_first_error.

(** [emits] and [emits_err] are what the driver writes. *)
Theorem C16_driver : forall (S : Type) (next : ser_next S) s h evs,
  (forall h', emits next s h evs h' <-> exists n, forall fuel, n <= fuel -> ser_run next fuel s h = SRDone evs h') /\
  (forall k, emits_err next s h evs k <-> exists n, forall fuel, n <= fuel -> ser_run next fuel s h = SRErr evs k).
Proof.
  intros S next s h evs. split; intros x; split.
  - intros H. exists (Datatypes.S (length evs)). intros fuel HF. apply emits_run; [exact H|lia].
  - intros (n & H). apply (run_emits next n). apply H. lia.
  - intros H. exists (Datatypes.S (length evs)). intros fuel HF. apply emits_err_run; [exact H|lia].
  - intros (n & H). apply (run_emits_err next n). apply H. lia.
Qed.
Print Assumptions C16_driver.

(** After the end, and after an item that could not be turned into a serializer,
    the list serializer stays finished. *)
Theorem C16_stays_done : forall (I S : Type) (mk : I -> outcome kind S) (next : ser_next S) items h r st h',
  ipending mk next items h = (r, st, h') -> (r = None \/ (exists x xs k, items = x :: xs /\ mk x = Err k)) ->
  forall h2, iser_next mk next st h2 = (None, IDone, h2).
Proof.
  intros I S mk next items h r st h' H HC h2. assert (E : st = IDone); [|subst; reflexivity].
  destruct HC as [->|(x & xs & k & -> & E)].
  - apply ipend_cases in H. apply H.
  - cbn in H. rewrite E in H. congruence.
Qed.
Print Assumptions C16_stays_done.

Example C16_example :
  let mk (l : list event) : outcome kind (list event) := match l with [] => Err KMissingContent | _ => Ok l end in
  ser_run (iser_next mk play) 9 (IPending [[EText "a"; EText "b"]; [ECData "c"]]) helper_default =
    SRDone [EText "a"; EText "b"; ECData "c"] helper_default /\
  ser_run (iser_next mk play) 9 (IPending [[EText "a"]; []; [EText "z"]]) helper_default = SRErr [EText "a"] KMissingContent.
Proof. split; reflexivity. Qed.

(** C17.  Whatever the wrapped serializer produces (helper calls in between
    included), if it produces one element (and maybe more after it), the wrapper
    writes the same tree with only the outermost tag renamed. *)
Theorem C17_outermost_only : forall (S : Type) (next : ser_next S) name root, uses_helper next ->
  forall s h out h', emits (xser_next next) (XSer s name root XInit) h out h' ->
  exists l last, produces next s l last /\
    forall t rest, map fst l = (flatten t ++ rest)%list -> proper t = true -> root_name t <> None ->
      NoDup (map fst (root_attrs t)) ->
      exists t', renamed name t t' /\ out = (flatten t' ++ rest)%list.
Proof. exact (@xsi_rewrites). Qed.
Print Assumptions C17_outermost_only.

Lemma play_uses_helper : uses_helper play.
Proof.
  intros s h r s' h' H. exists []. destruct s; cbn in H |- *; congruence.
Qed.

Example C17_example :
  let t := XElem "d" [("k", "v")] [XElem "d" [] [XLeaf (EText "x")]; XEmpty "b" []] in
  uses_helper play /\
  ser_run (xser_next play) 9 (XSer (flatten t) "b" true XInit) helper_default =
    SRDone (flatten (XElem "b" [("xmlns:xsi", XSI_NS); ("xsi:type", "d"); ("k", "v")]
                      [XElem "d" [] [XLeaf (EText "x")]; XEmpty "b" []])) helper_default.
Proof. split; [exact play_uses_helper|reflexivity]. Qed.

(** C52.  Full statement: a serializer closes every namespace scope it opens.
    It is false for the xsi:type wrapper around an empty element. *)
Theorem C52_scope_refuted : exists s h out h', uses_helper play /\
  ser_run (xser_next play) 5 (XSer s "b" true XInit) h = SRDone out h' /\
  ser_run play 5 s h = SRDone s h /\ h_level h' = Datatypes.S (h_level h) /\ h_ns h' <> h_ns h.
Proof.
  exists [EEmpty "d" []], helper_default. do 2 eexists. split; [exact play_uses_helper|].
  split; [reflexivity|]. split; [reflexivity|]. split; [reflexivity|discriminate].
Qed.
Print Assumptions C52_scope_refuted.

(** For every wrapped serializer that closes the scopes it opens: the wrapper
    does so too if a start tag is written, and never if an empty-element tag is
    written. *)
Theorem C52_scope_partial : forall (S : Type) (next : ser_next S) name root, uses_helper next ->
  forall s h out h', emits (xser_next next) (XSer s name root XInit) h out h' ->
  exists l last, produces next s l last /\
    forall t, map fst l = flatten t -> proper t = true -> depth 0 (step_ops l ++ last)%list = Some 0 ->
      match t with
      | XElem _ _ _ => h_level h' = h_level h
      | XEmpty _ _ => h_level h' = Datatypes.S (h_level h)
      | XLeaf _ => True
      end.
Proof. exact (@xsi_levels). Qed.
Print Assumptions C52_scope_partial.

(** C14.  Full statement: a nillable value comes back unchanged.  It is false:
    the second of two nil siblings is not recognised as nil, because its xsi
    prefix is not declared; and a value with an attribute called nil is read as
    nil. *)
Theorem C14_siblings_refuted : exists evs h' dh,
  ser_run (iser_next (nillable_serializer (fun s => Ok (CBegin (Some "n") (write_string s))) (Some "n"))
                     (nser_next cser_next)) 9 (IPending [None; None]) (begin_ns_scope helper_default) = SRDone evs h' /\
  dh_event dhelper_default (EStart "root" []) = Some dh /\
  exists e1 e2, evs = [e1; e2] /\
  driver_run (nillable_deser (content_deser no_charref utf8_valid parse_string)) (fun _ => Some true)
    (Driver dh None None) [e1] = RDone None [] /\
  exists dh2, dh_event dh e1 = Some dh2 /\
  driver_run (nillable_deser (content_deser no_charref utf8_valid parse_string)) (fun _ => Some true)
    (Driver dh2 None None) [e2] = RDone (Some "") [].
Proof.
  do 3 eexists. split; [vm_compute; reflexivity|]. split; [vm_compute; reflexivity|].
  do 2 eexists. split; [reflexivity|]. split; [vm_compute; reflexivity|].
  eexists. split; vm_compute; reflexivity.
Qed.
Print Assumptions C14_siblings_refuted.

Theorem C14_attribute_refuted : exists e evs h',
  ser_run (nser_next (eser_next (fun _ => true))) 9 (NSome (SStart None e)) helper_default = SRDone evs h' /\
  driver_run (nillable_deser element_deser) (fun _ => Some true) driver_new evs = RDone None [].
Proof.
  exists (Element "a" [("nil", "true")] [] []). do 2 eexists. split; vm_compute; reflexivity.
Qed.
Print Assumptions C14_attribute_refuted.

(** Proved part for nil: it comes back wherever the declaration of xsi is either
    written with it or in scope for the reader.  Missing: the other positions. *)
Theorem C14_nil_partial : forall (T D : Type) (des : deser T D) (S : Type) (next : ser_next S) tb h h' a dh name,
  write_xmlns h (Some "xsi") XSI_NS = (h', a) ->
  (a = [] -> find_prefix (Some "xsi") (r_bindings (d_res (dh_pop dh))) = Some XSI_NS) ->
  forall fuel rest, 2 <= fuel ->
  exists e, ser_run (nser_next next) fuel (NNil name) h = SRDone [e] h' /\
    driver_run (nillable_deser des) tb (Driver dh None None) (e :: rest) = RDone None rest.
Proof.
  intros T D des S next tb h h' a dh name HW HA fuel rest HF.
  exists (EEmpty name (a ++ [("xsi:nil", "true")])). split.
  - do 2 (destruct fuel as [|fuel]; [lia|]). cbn [ser_run nser_next]. rewrite HW. reflexivity.
  - eapply nil_round_trip; eassumption.
Qed.
Print Assumptions C14_nil_partial.

(** As a document of its own nil always comes back. *)
Theorem C14_nil_document : forall (T D : Type) (des : deser T D) (S : Type) (next : ser_next S) tb name fuel rest, 2 <= fuel ->
  exists e h', ser_run (nser_next next) fuel (NNil name) helper_default = SRDone [e] h' /\
    driver_run (nillable_deser des) tb driver_new (e :: rest) = RDone None rest.
Proof.
  intros T D des S next tb name fuel rest HF.
  destruct (C14_nil_partial T D des S next tb helper_default _ _ dhelper_default name eq_refl) with (fuel := fuel) (rest := rest)
    as (e & H1 & H2); [discriminate|exact HF|]. eauto.
Qed.
Print Assumptions C14_nil_document.

(** Proved part for values, and for every other input, good or bad: the result is
    that of the wrapped deserializer, provided no tag it starts on says nil. *)
Theorem C14_value_partial : forall (T D : Type) (des : deser T D) tb evs, starts_ok des tb driver_new evs ->
  driver_run (nillable_deser des) tb driver_new evs = lift_result (driver_run des tb driver_new evs).
Proof. intros. apply (nillable_sim des tb evs driver_new H). Qed.
Print Assumptions C14_value_partial.

(** Nil written with start and end tag and only white space or comments inside. *)
Theorem C14_nil_long_form : forall (T D : Type) (des : deser T D) tb dh n a h1 k v body m rest,
  dh_event dh (EStart n a) = Some h1 -> NoDup (map fst a) -> In (k, v) a ->
  nil_true v = true -> dh_resolve (d_res h1) k true = (RBound XSI_NS, "nil") -> forallb (blank_event tb) body = true ->
  driver_run (nillable_deser des) tb (Driver dh None None) (EStart n a :: body ++ EEnd m :: rest) = RDone None rest.
Proof. exact (@nil_read_start). Qed.
Print Assumptions C14_nil_long_form.

Example C14_example :
  let evs := [EComment "c"; EStart "n" [("xmlns:xsi", XSI_NS); ("xsi:nil", "false")]; EText "v"; EEnd "n"] in
  let cd := content_deser no_charref utf8_valid parse_string in
  starts_ok cd (fun _ => Some true) driver_new evs /\
  driver_run (nillable_deser cd) (fun _ => Some true) driver_new evs = RDone (Some "v") [].
Proof.
  cbn zeta. split; [|vm_compute; reflexivity].
  assert (HS : forall cd v e evs, start_ok cd v e ->
    match driver_step cd (fun _ => Some true) v e with Ok (None, v') => starts_ok cd (fun _ => Some true) v' evs | _ => True end ->
    @starts_ok bytes bytes cd (fun _ => Some true) v (e :: evs)) by (intros; split; assumption).
  apply HS; [intros _ h e' Hh He; vm_compute in Hh, He; injection Hh as <-; injection He as <-; reflexivity|vm_compute driver_step; cbn beta iota].
  apply HS; [intros _ h e' Hh He; vm_compute in Hh, He; injection Hh as <-; injection He as <-;
    (split; [repeat (constructor; [cbn; intuition discriminate|]); constructor|
             intros X; inversion X as [? ? [_ Y]|? ? X2]; [discriminate Y|inversion X2 as [? ? [_ Y]|? ? X3]; [discriminate Y|inversion X3]]])|vm_compute driver_step; cbn beta iota].
  apply HS; [intros HD; discriminate HD|vm_compute driver_step; cbn beta iota].
  apply HS; [intros HD; discriminate HD|vm_compute driver_step; cbn beta iota]. exact I.
Qed.

(** C15.  Full statement: [xsi_declared].  It is false for nil siblings and for an
    xsi:type root whose value declared xsi itself (here: nil). *)
Theorem C15_siblings_refuted : exists evs h',
  ser_run (iser_next (nillable_serializer (fun s => Ok (CBegin (Some "n") (write_string s))) (Some "n"))
                     (nser_next cser_next)) 9 (IPending [None; None]) (begin_ns_scope helper_default) = SRDone evs h' /\
  ~ xsi_declared [] evs.
Proof.
  do 2 eexists. split; [vm_compute; reflexivity|]. intros H.
  specialize (H [EEmpty "n" [("xmlns:xsi", XSI_NS); ("xsi:nil", "true")]] (EEmpty "n" [("xsi:nil", "true")]) [] "n" [("xsi:nil", "true")]
    eq_refl (or_intror eq_refl) (or_introl (or_introl eq_refl))). destruct H as [H _]. vm_compute in H. discriminate.
Qed.
Print Assumptions C15_siblings_refuted.

Theorem C15_root_refuted : exists evs h',
  ser_run (xser_next (nser_next play)) 9 (XSer (NNil "T") "base" true XInit) helper_default = SRDone evs h' /\
  ~ xsi_declared [] evs.
Proof.
  do 2 eexists. split; [vm_compute; reflexivity|]. intros H.
  specialize (H [] (EEmpty "base" [("xsi:type", "T"); ("xsi:nil", "true")]) [] "base" [("xsi:type", "T"); ("xsi:nil", "true")]
    eq_refl (or_intror eq_refl) (or_introl (or_intror (or_introl eq_refl)))). destruct H as [H _]. vm_compute in H. discriminate.
Qed.
Print Assumptions C15_root_refuted.

(** Proved part: nil and xsi:type are bound whenever the helper's belief that xsi
    is declared is right for the elements [els] around the tag. *)
Theorem C15_nil_partial : forall els h h' a name,
  write_xmlns h (Some "xsi") XSI_NS = (h', a) -> (a = [] -> xsi_bound_at els) ->
  xsi_bound_at (els ++ [(name, (a ++ [("xsi:nil", "true")])%list)]).
Proof. exact nil_declared. Qed.
Print Assumptions C15_nil_partial.

Theorem C15_type_partial : forall els name root n a h n' a' h', n <> name ->
  xsi_rewrite name root n a h = (n', a', h') ->
  (root = true -> get_namespace_prefix h XSI_NS = Some (Some "xsi") -> xsi_bound_at els) ->
  (root = false -> xsi_bound_at els) ->
  xsi_bound_at (els ++ [(n', a')]).
Proof. exact xsi_type_declared. Qed.
Print Assumptions C15_type_partial.

Example C15_example :
  xsi_bound_at [("r", [("xmlns:xsi", XSI_NS)])] /\
  xsi_rewrite "b" true "d" [("k", "v")] (begin_ns_scope helper_default) =
    ("b", [("xmlns:xsi", XSI_NS); ("xsi:type", "d"); ("k", "v")], Helper 1 [NsEntry 1 (Some "xsi") XSI_NS]).
Proof. split; [split; [reflexivity|discriminate]|reflexivity]. Qed.
