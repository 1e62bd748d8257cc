(** The deserializers of all types of a schema keep to the rules of the driver. *)
From Verif Require Import DocModel DeSpec DeProofs GenFrameProofs DocProofs.
Local Open Scope list_scope.

Lemma lift_frame {T A W E} (inj : W -> val T A) (up : E -> dst T A) down (d : deser W E) :
  respects d /\ gives_back d -> respects (lift inj up down d) /\ gives_back (lift inj up down d).
Proof.
  intros [(R1 & R2 & R3) (G1 & G2)].
  assert (L : forall r o h', lift_result inj up r = Ok (o, h') -> exists o0, r = Ok (o0, h') /\ o_ev o = o_ev o0).
  { intros r o h' H. unfold lift_result in H. bind H. injection H as <- <-. eauto. }
  apply frame_of; cbn.
  - intros h e o h' H. destruct (L _ _ _ H) as (o0 & H0 & ->). split; [eauto|]. intros e' X. eapply G1; eauto.
  - intros d0 h e o h'. destruct (down d0) as [s|]; [|discriminate]. intros H. destruct (L _ _ _ H) as (o0 & H0 & ->).
    split; [eauto|]. intros e' X. eapply G2; eauto.
  - intros d0 h v h'. destruct (down d0) as [s|]; [|discriminate]. intros H. bind H. injection H as _ <-. eauto.
Qed.

Lemma text_frame {T} charref utf8_ok (parse : dhelper -> bytes -> outcome kind (T * dhelper)) :
  (forall h s v h', parse h s = Ok (v, h') -> helper_ok h h') ->
  respects (content_deser charref utf8_ok parse) /\ gives_back (content_deser charref utf8_ok parse).
Proof.
  intros P. apply frame_of; cbn.
  - intros h e o h'. unfold content_init. destruct e; try (intros [= <- <-]; cbn; auto with frame; fail).
    destruct (parse h ""%string) as [[t h1]| |] eqn:E; intros [= <- <-]. cbn. split; [eapply P; eauto|auto with frame].
  - intros d h e o h'. unfold content_next. destruct (piece _ _ e) as [[s| |]|]; try discriminate.
    + intros [= <- <-]. cbn. auto with frame.
    + destruct e; try (intros [= <- <-]; cbn; auto with frame; fail).
      destruct (content_finish parse d h) as [[t h1]| |] eqn:E; intros [= <- <-]. cbn.
      split; [eapply P; eauto|auto with frame].
  - intros d h v h'. apply P.
Qed.

Lemma simple_frame {T A} (from_start : dhelper -> bytes -> list attr -> outcome kind (A * dhelper))
    charref utf8_ok (parse : dhelper -> bytes -> outcome kind (T * dhelper)) :
  (forall h n a v h', from_start h n a = Ok (v, h') -> helper_ok h h') ->
  (forall h s v h', parse h s = Ok (v, h') -> helper_ok h h') ->
  respects (simple_deser from_start charref utf8_ok parse) /\ gives_back (simple_deser from_start charref utf8_ok parse).
Proof.
  intros SF P. destruct (text_frame charref utf8_ok parse P) as [(R1 & R2 & R3) (G1 & G2)].
  assert (L : forall a h e r, rframe h e r -> rframe h e (simple_handle (A:=A) (T:=T) a r)).
  { intros a h e r F o h' H. unfold simple_handle in H. bind H. injection H as <- <-. cbn. apply F. exact E. }
  assert (N : forall d h e, rframe h e (simple_next (A:=A) charref utf8_ok parse d h e)).
  { intros [a [c|]] h e; apply L; intros o h' H; (split; [eauto|]; intros e' X).
    - eapply G2; eauto.
    - eapply G1; eauto. }
  apply frame_of; cbn [simple_deser de_init de_next de_finish].
  - intros h e o h'. unfold simple_init. destruct e; try (intros [= <- <-]; cbn; auto with frame; fail);
      (intros H; bind H; destruct (N _ _ _ _ _ H); split; auto; eapply helper_trans; [eapply SF; eauto|eauto]).
  - exact N.
  - intros [a [c|]] h v h'; cbn; [|discriminate]. intros H. bind H. injection H as _ <-. eapply R3; eauto.
Qed.

Section Schema.
  Context {T A : Type}.
  Variables (ff : flat_flags) (no_attrs : A)
    (attrs_of : nat -> dhelper -> bytes -> list attr -> outcome kind (A * dhelper))
    (parse : nat -> dhelper -> bytes -> outcome kind (T * dhelper))
    (charref : bytes -> option bytes) (utf8_ok : bytes -> bool) (env : nat -> tdef).
  Hypothesis AF : forall ty h n a v h', attrs_of ty h n a = Ok (v, h') -> helper_ok h h'.
  Hypothesis PF : forall ty h s v h', parse ty h s = Ok (v, h') -> helper_ok h h'.

  Notation mem := (member (val T A) (dst T A)).

  Lemma any_attrs_frame : forall h n a v h', any_attrs no_attrs h n a = Ok (v, h') -> helper_ok h h'.
  Proof. intros h n a v h' [= _ <-]. apply helper_refl. Qed.

  Lemma raw_frame c dfl (ms : list mem) : Forall member_frame ms ->
    respects (raw_group no_attrs c dfl ms) /\ gives_back (raw_group no_attrs c dfl ms).
  Proof.
    intros F. pose proof any_attrs_frame as AA.
    destruct c; apply lift_frame; [apply seq_frame|apply enum_frame|apply all_frame]; auto.
  Qed.
  Lemma content_member_frame min max c dfl (ms : list mem) : Forall member_frame ms ->
    member_frame (content_member no_attrs min max c dfl ms).
  Proof.
    intros F. destruct (raw_frame c dfl ms F) as [R G]. split; [exact R|split; [exact G|]].
    cbn. unfold raw_default. destruct dfl; [|discriminate]. intros df h v h' [= <-]. apply R.
  Qed.
  Lemma group_frame c dfl (ms : list mem) : Forall member_frame ms ->
    respects (group_deser ff no_attrs c dfl ms) /\ gives_back (group_deser ff no_attrs c dfl ms).
  Proof.
    intros F. unfold group_deser. destruct (flat_for ff c); [apply raw_frame; auto|].
    apply lift_frame. apply content_frame; [apply any_attrs_frame|]. apply content_member_frame. exact F.
  Qed.

  Lemma member_of_frame (gen : nat -> deser (val T A) (dst T A)) : (forall ty, respects (gen ty) /\ gives_back (gen ty)) ->
    forall p, member_frame (member_of ff no_attrs gen p).
  Proof.
    intros GF. induction p as [min max ns name ty|min max c ps IH] using particle_ind'; cbn [member_of].
    - destruct (GF ty). split; [auto|split; [auto|discriminate]].
    - destruct (group_frame c (defaultable_group c ps) (map (member_of ff no_attrs gen) ps)) as [R G].
      { rewrite Forall_map. exact IH. }
      split; [exact R|split; [exact G|]]. cbn. unfold group_default. destruct (defaultable_group c ps); [|discriminate].
      intros df h v h' [= <-]. apply R.
  Qed.

  Lemma type_frame : forall n ty,
    respects (type_deser ff no_attrs attrs_of parse charref utf8_ok env n ty) /\
    gives_back (type_deser ff no_attrs attrs_of parse charref utf8_ok env n ty).
  Proof.
    induction n as [|n IH]; intros ty.
    - apply frame_of; cbn; discriminate.
    - cbn [type_deser]. destruct (env ty) as [| |attributed min max c ps].
      + apply lift_frame. apply text_frame. apply PF.
      + apply lift_frame. apply simple_frame; [apply AF|apply PF].
      + unfold complex_deser.
        set (gen := type_deser ff no_attrs attrs_of parse charref utf8_ok env n) in *.
        assert (MS : Forall member_frame (map (member_of ff no_attrs gen) ps)).
        { rewrite Forall_map. apply Forall_forall. intros p _. apply member_of_frame. exact IH. }
        destruct (flattened ff attributed min max c).
        * destruct c.
          -- destruct (map _ ps) as [|m ms] eqn:Q; apply lift_frame; [apply empty_frame|apply seq_frame]; eauto.
          -- apply lift_frame. apply enum_frame; eauto.
          -- destruct (map _ ps) as [|m ms] eqn:Q; apply lift_frame; [apply empty_frame|apply all_frame]; eauto.
        * destruct (has_content min max ps); apply lift_frame; [|apply empty_frame; eauto].
          apply content_frame; eauto. apply content_member_frame. exact MS.
  Qed.
End Schema.

(** While a document is read, the helper knows the namespaces in scope. *)
Lemma run_scope {T D} (des : deser T D) tb evs v : respects des -> well_nested evs ->
  driver_run des tb driver_new evs = RMore v ->
  (forall k ns, In (k, ns) (fst (namespaces (v_helper v))) <-> bound (filter_prefix (Some k)) ns (enclosing evs)) /\
  (forall p local attribute ns, split_colon (p ++ ":" ++ local)%string = Some (p, local) -> p <> "xml"%string -> p <> "xmlns"%string ->
     dh_resolve (d_res (v_helper v)) (p ++ ":" ++ local)%string attribute = (RBound ns, local) <->
     bound (Some p) ns (enclosing evs)).
Proof.
  intros R W Run. pose proof (driver_run_hinv des tb R evs [] driver_new v W hinv_default Run) as HI.
  cbn [app] in HI. split.
  - destruct (hinv_ask _ _ _ HI) as [E _]. rewrite E. apply nsm_spec.
  - intros p local attribute ns HS H1 H2. destruct HI as [_ _ Hr _].
    unfold dh_resolve, resolve. rewrite HS. apply String.eqb_neq in H1, H2. rewrite H1, H2, Hr. cbn [r_bindings].
    unfold frames. rewrite find_prefix_scope. unfold bound.
    destruct (in_scope (Some p) (enclosing evs)) as [[|c s]|]; split; intros H; try discriminate.
    + destruct H as [H Hne]. congruence.
    + split; [congruence|]. injection H as <-. discriminate.
    + destruct H as [H _]. congruence.
    + destruct H; discriminate.
Qed.
