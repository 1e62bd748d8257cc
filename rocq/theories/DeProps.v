(** C08-C10: the deserialization driver. *)
From Verif Require Import DeModel DeSpec DeProofs.
Local Open Scope string_scope.

(** C08.  For every deserializer that treats the helper as the interface allows,
    every well-nested stretch [pre] already read, and every element that the
    deserializer leaves to be skipped: the whole element, whatever its (balanced)
    content, is consumed, exactly the events after its end tag remain, the
    deserializer sees none of the content, and the namespace scope is the one
    before the element. *)
Theorem C08_skip_exact : forall T D (des : deser T D) tb, respects des ->
  forall pre v n a v1 content m h e rest,
  driver_run des tb driver_new pre = RMore v -> well_nested pre -> v_skip v = None ->
  driver_step des tb v (EStart n a) = Ok (None, v1) -> v_skip v1 = Some 1 ->
  balanced_content content ->
  dh_run (v_helper v1) (map DEvent content) = Some h ->
  exists hx, helper_ok (dh_pop (v_helper v)) hx /\
    driver_run des tb v (EStart n a :: content ++ EEnd m :: e :: rest) =
    driver_run des tb (Driver hx (v_des v1) None) (e :: rest).
Proof. intros. eapply skip_exact; eassumption. Qed.
Print Assumptions C08_skip_exact.

(** Only a start tag begins to skip: an empty element, a text or an end tag that is
    ignored does not take the events after it along. *)
Theorem C08_skip_only_elements : forall T D (des : deser T D) tb v e r v1, gives_back des ->
  v_skip v = None -> driver_step des tb v e = Ok (r, v1) ->
  v_skip v1 = None \/ (v_skip v1 = Some 1 /\ exists n a, e = EStart n a).
Proof. intros; eapply skip_only; eassumption. Qed.
Print Assumptions C08_skip_only_elements.

(** A tag nobody wants is an error unless the deserializer allows any. *)
Theorem C08_unexpected : forall T D (des : deser T D) tb v e h o h',
  v_skip v = None -> dh_event (v_helper v) e = Some h ->
  match v_des v with None => de_init des h e | Some d => de_next des d h e end = Ok (o, h') ->
  into_event (o_ev o) = Some e -> o_any o = false -> solid e ->
  driver_step des tb v e = Err (KUnexpectedEvent e).
Proof.
  intros T D des tb v e h o h' S E O I A X. unfold driver_step. rewrite E, S. cbn [handle_skip].
  rewrite O, I, A. destruct e; try destruct X; reflexivity.
Qed.
Print Assumptions C08_unexpected.

(** A deserializer that accepts any root element, ignores all children and counts
    the texts directly below the root. *)
Definition toy : deser nat nat := Deser
  (fun h e => match e with
              | EStart _ _ => Ok (DOut (ADes 0) DNone true, h)
              | e => Ok (DOut ANone (DContinue e) false, h)
              end)
  (fun d h e => match e with
                | EText _ => Ok (DOut (ADes (S d)) DNone true, h)
                | EEnd _ => Ok (DOut (AData d) DNone true, h)
                | e => Ok (DOut (ADes d) (DContinue e) true, h)
                end)
  (fun d h => Ok (d, h)).

Example C08_example :
  let tb := fun _ => Some true in
  let pre := [EStart "root" [("xmlns", "urn:a")]; EText "x"] in
  let content := [EStart "c" [("xmlns", "urn:b")]; EText "y"; EEmpty "d" []; EEnd "c"; EText "z"] in
  respects toy /\ well_nested pre /\ balanced_content content /\
  exists v v1 h, driver_run toy tb driver_new pre = RMore v /\ v_skip v = None /\
    driver_step toy tb v (EStart "skipped" []) = Ok (None, v1) /\ v_skip v1 = Some 1 /\
    dh_run (v_helper v1) (map DEvent content) = Some h /\
    gives_back toy /\ driver_run toy tb v [EEmpty "skipped" []; EText "w"; EEnd "root"; EEof] = RDone 2 [EEof] /\
    driver_run toy tb v (EStart "skipped" [] :: content ++ EEnd "skipped" :: EText "w" :: [EEnd "root"; EEof]) =
      RDone 2 [EEof].
Proof.
  cbn zeta. split; [|split; [|split]].
  - split; [|split].
    + intros h e o h' H. destruct e; injection H as _ <-; left; reflexivity.
    + intros d h e o h' H. destruct e; injection H as _ <-; left; reflexivity.
    + intros d h t h' H. injection H as _ <-; left; reflexivity.
  - intros p q E. repeat (destruct p as [|x p]; [reflexivity|injection E as <- E]).
    symmetry in E; apply app_eq_nil in E; destruct E as [-> _]; reflexivity.
  - split; [|split; [reflexivity|]].
    + intros p q E. repeat (destruct p as [|x p]; [reflexivity|injection E as <- E]).
      symmetry in E; apply app_eq_nil in E; destruct E as [-> _]; reflexivity.
    + intros H. repeat (destruct H as [H|H]; [discriminate|]). destruct H.
  - do 3 eexists. split; [vm_compute; reflexivity|]. do 4 (split; [vm_compute; reflexivity|]). split.
    + split.
      * intros h0 e o h' e' H. destruct e; injection H as <- _; intros K; try discriminate K; injection K as <-; reflexivity.
      * intros d h0 e o h' e' H. destruct e; injection H as <- _; intros K; try discriminate K; injection K as <-; reflexivity.
    + split; vm_compute; reflexivity.
Qed.

(** C09.  Whatever well-nested events the helper has seen, and however often the
    namespaces were asked for in between, the map returned contains exactly the
    declarations in scope at the current event, each prefix once. *)
Theorem C09_namespaces_in_scope : forall ops h, well_nested (events_of ops) ->
  dh_run dhelper_default ops = Some h ->
  (forall k ns, In (k, ns) (fst (namespaces h)) <->
                bound (filter_prefix (Some k)) ns (enclosing (events_of ops))) /\
  NoDup (map fst (fst (namespaces h))).
Proof. exact namespaces_correct. Qed.
Print Assumptions C09_namespaces_in_scope.

(** ... and a prefixed name is resolved by the same scope. *)
Theorem C09_resolve_in_scope : forall ops h p local attribute, well_nested (events_of ops) ->
  dh_run dhelper_default ops = Some h ->
  split_colon (p ++ ":" ++ local) = Some (p, local) -> p <> "xml" -> p <> "xmlns" ->
  forall ns, dh_resolve (d_res h) (p ++ ":" ++ local) attribute = (RBound ns, local) <->
     bound (Some p) ns (enclosing (events_of ops)).
Proof. exact resolve_correct. Qed.
Print Assumptions C09_resolve_in_scope.

(** A name without prefix has the default namespace if it is not that of an attribute. *)
Theorem C09_resolve_plain : forall ops h name, well_nested (events_of ops) ->
  dh_run dhelper_default ops = Some h -> split_colon name = None ->
  (forall ns, dh_resolve (d_res h) name false = (RBound ns, name) <-> bound None ns (enclosing (events_of ops))) /\
  dh_resolve (d_res h) name true = (RUnbound, name).
Proof. exact resolve_plain_correct. Qed.
Print Assumptions C09_resolve_plain.

Example C09_example :
  let ops := [DEvent (EStart "r" [("xmlns:a", "urn:1"); ("xmlns", "urn:d")]); DAsk;
              DEvent (EStart "c" [("xmlns:a", "urn:2"); ("xmlns:b", "urn:3")]); DAsk; DEvent (EEnd "c"); DAsk;
              DEvent (EEmpty "e" [("xmlns", "")])] in
  well_nested (events_of ops) /\
  exists h, dh_run dhelper_default ops = Some h /\ fst (namespaces h) = [("a", "urn:1")].
Proof.
  cbn zeta. split.
  - intros p q E. cbn in E. repeat (destruct p as [|x p]; [reflexivity|injection E as <- E]).
    symmetry in E; apply app_eq_nil in E; destruct E as [-> _]; reflexivity.
  - eexists. split; vm_compute; reflexivity.
Qed.

(** C10.  After any events the element path reported with an error consists of
    the names of the elements that are open, outermost first. *)
Theorem C10_error_path : forall lossy evs,
  error_path lossy evs = map (fun x => lossy (fst x)) (open_elements evs).
Proof. exact error_path_open. Qed.
Print Assumptions C10_error_path.

Example C10_example :
  error_path (fun x => x) [EStart "a" []; EStart "b" []; EEnd "b"; EEmpty "c" []; EStart "d" []; EText "t"] = ["a"; "d"].
Proof. reflexivity. Qed.
