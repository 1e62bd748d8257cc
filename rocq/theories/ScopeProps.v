(** Property C103: the namespaces kept beside a value. *)
From Verif Require Import Utf8 ScopeModel ScopeSpec ScopeProofs DeProofs TextModel.
Local Open Scope string_scope.

(** C103.  Whatever a deserializer does with an event, the wrapped one does the
    same, and a value it returns comes with exactly the namespaces in scope at
    that event. *)
Theorem C103_init : forall (T D : Type) (des : deser T D) ops h e, respects des -> leads_to ops h ->
  wrapped (enclosing (events_of ops)) (de_init des h e) (de_init (scope_des des) h e).
Proof.
  intros T D des ops h e (H1 & _) HL. apply (result_wrapped _ h); [apply leads_hinv, HL|].
  intros; eapply H1; eassumption.
Qed.
Print Assumptions C103_init.

Theorem C103_next : forall (T D : Type) (des : deser T D) ops h d e, respects des -> leads_to ops h ->
  wrapped (enclosing (events_of ops)) (de_next des d h e) (de_next (scope_des des) d h e).
Proof.
  intros T D des ops h d e (_ & H2 & _) HL. apply (result_wrapped _ h); [apply leads_hinv, HL|].
  intros; eapply H2; eassumption.
Qed.
Print Assumptions C103_next.

Theorem C103_finish : forall (T D : Type) (des : deser T D) ops h d, respects des -> leads_to ops h ->
  wrapped_value (enclosing (events_of ops)) (de_finish des d h) (de_finish (scope_des des) d h).
Proof.
  intros T D des ops h d (_ & _ & H3) HL. apply (value_wrapped _ h); [apply leads_hinv, HL|].
  intros; eapply H3; eassumption.
Qed.
Print Assumptions C103_finish.

(** The same for values read from the text of an attribute or a list. *)
Theorem C103_bytes : forall (T : Type) (parse : dhelper -> bytes -> outcome kind (T * dhelper)) ops h raw,
  parse_respects parse -> leads_to ops h ->
  wrapped_value (enclosing (events_of ops)) (parse h raw) (scope_bytes parse h raw).
Proof.
  intros T parse ops h raw HP HL. apply (value_wrapped _ h); [apply leads_hinv, HL|].
  intros; eapply HP; eassumption.
Qed.
Print Assumptions C103_bytes.

(** The wrapped deserializer can stand wherever the other one could. *)
Theorem C103_nests : forall (T D : Type) (des : deser T D),
  (respects des -> respects (scope_des des)) /\ (gives_back des -> gives_back (scope_des des)).
Proof. intros. split; [apply scope_respects|apply scope_gives_back]. Qed.
Print Assumptions C103_nests.

(** Whole documents: same value, same unread events, same errors; the namespaces
    are those in scope at the last event read. *)
Theorem C103_document : forall (T D : Type) (des : deser T D) tb evs, respects des -> well_nested evs ->
  match driver_run des tb driver_new evs, driver_run (scope_des des) tb driver_new evs with
  | RDone t rest, RDone s rest' => s_inner s = t /\ rest' = rest /\
      exists read, (evs = read ++ rest)%list /\ holds_scope (s_ns s) (enclosing read)
  | RErr k, RErr k' => k' = k
  | RPanic, RPanic => True
  | RMore w, RMore w' => w' = w
  | _, _ => False
  end.
Proof. intros. apply run_scope_doc; assumption. Qed.
Print Assumptions C103_document.

(** A value returned at the end tag of its element, whatever the element
    contains, has the namespaces of the element's start tag: the declarations of
    its content are gone, its own are there. *)
Theorem C103_element_partial : forall (T D : Type) (des : deser T D) ops h d pre n a content n' o h' s,
  respects des -> leads_to ops h -> balanced_content content ->
  events_of ops = (pre ++ EStart n a :: content ++ [EEnd n'])%list ->
  de_next (scope_des des) d h (EEnd n') = Ok (o, h') -> o_art o = AData s ->
  holds_scope (s_ns s) (open_elements pre ++ [(n, a)])%list.
Proof.
  intros T D des ops h d pre n a content n' o h' s HR HL HB HE HN HA.
  pose proof (C103_next T D des ops h d (EEnd n') HR HL) as HW. unfold wrapped in HW. rewrite HN in HW.
  destruct (de_next des d h (EEnd n')) as [[o0 h0]|k|]; try contradiction. destruct HW as (_ & _ & HW). rewrite HA in HW.
  destruct (o_art o0); try contradiction. destruct HW as [_ HW].
  rewrite HE, (enclosing_end _ _ _ _ _ HB) in HW. exact HW.
Qed.
Print Assumptions C103_element_partial.

Theorem C103_empty_element : forall (T D : Type) (des : deser T D) ops h pre n a o h' s,
  respects des -> leads_to ops h -> events_of ops = (pre ++ [EEmpty n a])%list ->
  de_init (scope_des des) h (EEmpty n a) = Ok (o, h') -> o_art o = AData s ->
  holds_scope (s_ns s) (open_elements pre ++ [(n, a)])%list.
Proof.
  intros T D des ops h pre n a o h' s HR HL HE HN HA.
  pose proof (C103_init T D des ops h (EEmpty n a) HR HL) as HW. unfold wrapped in HW. rewrite HN in HW.
  destruct (de_init des h (EEmpty n a)) as [[o0 h0]|k|]; try contradiction. destruct HW as (_ & _ & HW). rewrite HA in HW.
  destruct (o_art o0); try contradiction. destruct HW as [_ HW].
  rewrite HE, enclosing_snoc in HW. exact HW.
Qed.
Print Assumptions C103_empty_element.

(** So a name in the start tag of the element can be looked up later: the kept
    map gives a prefix the namespace it had when the start tag was read. *)
Theorem C103_names : forall ops h pre n a m p local attribute, leads_to ops h ->
  events_of ops = (pre ++ [EStart n a])%list -> holds_scope m (open_elements pre ++ [(n, a)])%list ->
  p <> "" -> split_colon (p ++ ":" ++ local) = Some (p, local) -> p <> "xml" -> p <> "xmlns" ->
  forall ns, In (p, ns) m <-> dh_resolve (d_res h) (p ++ ":" ++ local) attribute = (RBound ns, local).
Proof.
  intros ops h pre n a m p local attribute HL HE HH. apply (name_kept (open_elements pre ++ [(n, a)])%list ops h m); auto.
  rewrite HE, enclosing_snoc. reflexivity.
Qed.
Print Assumptions C103_names.

Theorem C103_plain_names : forall ops h pre n a m name, leads_to ops h ->
  events_of ops = (pre ++ [EStart n a])%list -> holds_scope m (open_elements pre ++ [(n, a)])%list ->
  split_colon name = None ->
  forall ns, In ("", ns) m <-> dh_resolve (d_res h) name false = (RBound ns, name).
Proof.
  intros ops h pre n a m name HL HE HH. apply (plain_kept (open_elements pre ++ [(n, a)])%list ops h m); auto.
  rewrite HE, enclosing_snoc. reflexivity.
Qed.
Print Assumptions C103_plain_names.

(** The hypotheses can be met. *)
Example C103_example :
  respects value_des /\ well_nested (doc "urn:1") /\
  driver_run (scope_des value_des) blank driver_new (doc "urn:1") =
    RDone (Scoped "p:x" [("p", "urn:1"); ("", "urn:d")]) [EEof].
Proof.
  split; [|split; [|vm_compute; reflexivity]].
  - repeat split.
    + intros h e o h' E. cbn in E. unfold content_init, keep in E. left. destruct e; injection E as <- <-; reflexivity.
    + intros d h e o h' E. cbn in E. unfold content_next, content_finish, keep in E. left.
      destruct (piece (fun _ => None) utf8_valid e) as [[t|k|]|]; try discriminate; [|destruct e];
        injection E as <- <-; reflexivity.
    + intros d h t h' E. left. injection E as <- <-. reflexivity.
  - intros p q E. repeat (destruct p as [|x p]; [reflexivity|injection E as <- E]).
    symmetry in E; apply app_eq_nil in E; destruct E as [-> _]; reflexivity.
Qed.

Example C103_element_hypotheses :
  let ops := map DEvent [EStart "r" [("xmlns:q", "urn:q"); ("xmlns:p", "urn:0")];
                         EStart "v" [("xmlns:p", "urn:1")]; EText "p:x"; EEnd "v"] in
  exists h o h' s, leads_to ops h /\ balanced_content [EText "p:x"] /\
    de_next (scope_des value_des) "p:x" h (EEnd "v") = Ok (o, h') /\ o_art o = AData s /\
    s_ns s = [("q", "urn:q"); ("p", "urn:1")].
Proof.
  cbn zeta. do 4 eexists. split; [split; [|vm_compute; reflexivity]|].
  - intros p q E. cbn in E. repeat (destruct p as [|x p]; [reflexivity|injection E as <- E]).
    symmetry in E; apply app_eq_nil in E; destruct E as [-> _]; reflexivity.
  - split; [|split; [vm_compute; reflexivity|split; reflexivity]].
    split; [|split; [reflexivity|intros [E|[]]; discriminate]].
    intros p q E. destruct p as [|x p]; [reflexivity|]. injection E as <- E.
    symmetry in E; apply app_eq_nil in E; destruct E as [-> _]; reflexivity.
Qed.

(** The full property "a value comes with the namespaces in scope where it
    stands" is false for values that end where the next tag begins: a text gets
    the declarations of the element after it. *)
Theorem C103_text_refuted : exists ops h e t d s h1 o h2,
  leads_to (ops ++ [DEvent (EText t)]) h /\
  de_init (scope_des (text_deser (fun _ => None) utf8_valid)) h (EText t) = Ok (DOut (ADes d) DNone false, h1) /\
  dh_event h1 e = Some h2 /\
  de_next (scope_des (text_deser (fun _ => None) utf8_valid)) d h2 e = Ok (o, snd (namespaces h2)) /\
  o_art o = AData s /\ s_inner s = t /\ In ("p", "urn:other") (s_ns s) /\
  bound (Some "p") "urn:mine" (enclosing (events_of (ops ++ [DEvent (EText t)]))).
Proof.
  exists [DEvent (EStart "r" [("xmlns:p", "urn:mine")])]. do 1 eexists. exists (EStart "s" [("xmlns:p", "urn:other")]), "p:x".
  do 5 eexists. split; [|split; [|split; [|split; [|split; [|split; [|split]]]]]].
  - split; [|vm_compute; reflexivity].
    intros p q E. cbn in E. repeat (destruct p as [|x p]; [reflexivity|injection E as <- E]).
    symmetry in E; apply app_eq_nil in E; destruct E as [-> _]; reflexivity.
  - vm_compute. reflexivity.
  - vm_compute. reflexivity.
  - vm_compute. reflexivity.
  - vm_compute. reflexivity.
  - reflexivity.
  - left; reflexivity.
  - split; [vm_compute; reflexivity|discriminate].
Qed.
Print Assumptions C103_text_refuted.

(** Values that mean different names can be equal: the namespaces are not
    compared. *)
Theorem C103_equal_refuted : exists s1 s2,
  driver_run (scope_des value_des) blank driver_new (doc "urn:1") = RDone s1 [EEof] /\
  driver_run (scope_des value_des) blank driver_new (doc "urn:2") = RDone s2 [EEof] /\
  scoped_eqb String.eqb s1 s2 = true /\
  s_inner s1 = "p:x" /\ In ("p", "urn:1") (s_ns s1) /\ In ("p", "urn:2") (s_ns s2) /\ ~ In ("p", "urn:1") (s_ns s2).
Proof.
  do 2 eexists. split; [vm_compute; reflexivity|]. split; [vm_compute; reflexivity|].
  repeat split; cbn; try (left; reflexivity).
  intros [E|[E|[]]]; discriminate.
Qed.
Print Assumptions C103_equal_refuted.

(** Equality is that of the values. *)
Theorem C103_equal : forall (T : Type) (eqb : T -> T -> bool) (a b : scoped T),
  (forall x y, eqb x y = true <-> x = y) ->
  (scoped_eqb eqb a b = true <-> fst (into_parts a) = into_inner b).
Proof. intros T eqb a b H. unfold scoped_eqb. rewrite H. reflexivity. Qed.
Print Assumptions C103_equal.
