(** The generated deserializers keep to the rules of the driver: they leave the helper
    alone except for asking it for the namespaces, and the event they hand back is the one
    they were given. *)
From Verif Require Import DeSpec GenModel GenSpec.
Local Open Scope list_scope.

Lemma helper_refl h : helper_ok h h.
Proof. left. reflexivity. Qed.

Lemma namespaces_twice h : snd (namespaces (snd (namespaces h))) = snd (namespaces h).
Proof. unfold namespaces. destruct (d_cache h) as [|[l [m|]] c] eqn:E; cbn; rewrite ?E; reflexivity. Qed.

Lemma helper_trans a b c : helper_ok a b -> helper_ok b c -> helper_ok a c.
Proof.
  intros [->| ->] [->| ->]; unfold helper_ok; auto. right. apply namespaces_twice.
Qed.

Lemma obind_ok {A B} (x : outcome kind A) (f : A -> outcome kind B) b :
  obind x f = Ok b -> exists a, x = Ok a /\ f a = Ok b.
Proof. destruct x; cbn; try discriminate. eauto. Qed.

(** Takes a run of binds apart. *)
Ltac bind H :=
  let a := fresh "a" in let E := fresh "E" in
  apply obind_ok in H; destruct H as (a & E & H);
  repeat match type of a with (_ * _)%type => let b := fresh "b" in destruct a as [a b] end.

Definition back (d : devent) (e : event) : Prop := forall e', into_event d = Some e' -> e' = e.
Definition hback (o : hout) (e : event) : Prop :=
  match o with HContinue e' _ => e' = e | HBreak d _ => back d e end.

Lemma back_none e : back DNone e.
Proof. intros e' [=]. Qed.
Lemma back_continue e : back (DContinue e) e.
Proof. intros e' [= <-]. reflexivity. Qed.
Lemma back_break e : back (DBreak e) e.
Proof. intros e' [= <-]. reflexivity. Qed.
Lemma back_into d e : back d e -> back (into_break d) e.
Proof. destruct d; intros B; exact B. Qed.
Lemma back_from d any e : back d e -> hback (from_event d any) e.
Proof.
  intros B. destruct d as [|e'|e']; cbn; auto. destruct (is_tag e' || is_end e'); cbn; auto.
Qed.
Lemma back_from_end d any e : back d e -> hback (from_event_end d any) e.
Proof. intros B. destruct d as [|e'|e']; cbn; auto. destruct (is_end e'); cbn; auto. Qed.
Lemma back_root d any e : back d e -> hback (return_to_root d any) e.
Proof. intros B. cbn. apply back_into. exact B. Qed.
Global Hint Resolve back_none back_continue back_break back_into back_from back_from_end back_root helper_refl : frame.

Section Frame.
  Context {V D A : Type}.
  Implicit Types m : member V D.
  Variable from_start : dhelper -> bytes -> list attr -> outcome kind (A * dhelper).

  (** The default of an element only asks for namespaces, too. *)
  Definition member_frame m : Prop :=
    respects (m_deser m) /\ gives_back (m_deser m) /\
    forall df h v h', m_default m = Some df -> df h = Ok (v, h') -> helper_ok h h'.

  Hypothesis SF : forall h n a v h', from_start h n a = Ok (v, h') -> helper_ok h h'.

  Definition rframe {X Y} (h : dhelper) (e : event) (r : dresult X Y) : Prop :=
    forall o h', r = Ok (o, h') -> helper_ok h h' /\ back (o_ev o) e.

  Lemma push_frame (df : dhelper -> outcome kind (V * dhelper)) n :
    (forall h v h', df h = Ok (v, h') -> helper_ok h h') ->
    forall h l r h', push_defaults df n h l = Ok (r, h') -> helper_ok h h'.
  Proof.
    intros F. induction n as [|n IH]; cbn; intros h l r h'.
    - intros [= _ <-]. apply helper_refl.
    - destruct (df h) as [[v h1]| |] eqn:E; try discriminate. intros H.
      eapply helper_trans; [eapply F; exact E|eapply IH; exact H].
  Qed.
  Lemma arr_frame (df : dhelper -> outcome kind (V * dhelper)) n :
    (forall h v h', df h = Ok (v, h') -> helper_ok h h') ->
    forall h l r h', finish_arr_default df n h l = Ok (r, h') -> helper_ok h h'.
  Proof.
    intros F h l r h'. unfold finish_arr_default, finish_vec_default.
    destruct (push_defaults _ _ _ _) as [[v h1]| |] eqn:E; try discriminate.
    destruct (Nat.eqb _ _); [|discriminate]. intros [= _ <-]. eapply push_frame; eauto.
  Qed.

  Lemma finish_field_frame m l h r h' : member_frame m -> finish_field m l h = Ok (r, h') -> helper_ok h h'.
  Proof.
    intros (_ & _ & F). unfold finish_field. specialize (fun df => F df).
    destruct (m_occ m).
    - discriminate.
    - destruct (m_default m) as [df|].
      + intros H. bind H. injection H as _ <-. unfold finish_default in E. destruct (hd_error l).
        * injection E as _ <-. apply helper_refl.
        * eapply F; [reflexivity|exact E].
      + intros H. bind H. injection H as _ <-. apply helper_refl.
    - intros [= _ <-]. apply helper_refl.
    - destruct (m_min m); [intros [= _ <-]; apply helper_refl|]. destruct (m_default m) as [df|].
      + apply push_frame. intros h0 v h1. apply F. reflexivity.
      + intros H. bind H. injection H as _ <-. apply helper_refl.
    - destruct (m_default m) as [df|].
      + apply arr_frame. intros h0 v h1. apply F. reflexivity.
      + intros H. bind H. injection H as _ <-. apply helper_refl.
  Qed.

  Lemma finish_fields_frame ms : Forall member_frame ms ->
    forall fs h r h', finish_fields ms fs h = Ok (r, h') -> helper_ok h h'.
  Proof.
    induction 1 as [|m ms M _ IH]; intros fs h r h'; cbn [finish_fields].
    - intros [= _ <-]. apply helper_refl.
    - destruct fs as [|f fs]; [intros [= _ <-]; apply helper_refl|]. intros H. bind H. bind H.
      injection H as _ <-. eapply helper_trans; [eapply finish_field_frame; eauto|eapply IH; eauto].
  Qed.

  Lemma init_frame m h e : member_frame m -> rframe h e (de_init (m_deser m) h e).
  Proof.
    intros ((R & _ & _) & (G & _) & _) o h' E. split; [eapply R; eauto|]. intros e' I. eapply G; eauto.
  Qed.
  Lemma next_frame m d h e : member_frame m -> rframe h e (de_next (m_deser m) d h e).
  Proof.
    intros ((_ & R & _) & (_ & G) & _) o h' E. split; [eapply R; eauto|]. intros e' I. eapply G; eauto.
  Qed.
  Lemma fin_frame m d h v h' : member_frame m -> de_finish (m_deser m) d h = Ok (v, h') -> helper_ok h h'.
  Proof. intros ((_ & _ & R) & _ & _). apply R. Qed.
  Lemma tag_frame m any h e : member_frame m -> rframe h e (init_start_tag m any h e).
  Proof.
    intros M o h'. unfold init_start_tag. destruct (check_tag _ _ _ _); [apply init_frame; auto|].
    intros [= <- <-]. split; [apply helper_refl|apply back_continue].
  Qed.

  Lemma frame_of {X Y} (des : deser X Y) :
    (forall h e, rframe h e (de_init des h e)) -> (forall d h e, rframe h e (de_next des d h e)) ->
    (forall d h v h', de_finish des d h = Ok (v, h') -> helper_ok h h') -> respects des /\ gives_back des.
  Proof.
    intros I N F. split; [split; [|split]|split].
    - intros h e o h' H. exact (proj1 (I h e o h' H)).
    - intros d h e o h' H. exact (proj1 (N d h e o h' H)).
    - exact F.
    - intros h e o h' e' H X'. exact (proj2 (I h e o h' H) e' X').
    - intros d h e o h' e' H X'. exact (proj2 (N d h e o h' H) e' X').
  Qed.

  (** ** Sequences *)
  Section Sequence.
    Variables (elem : bool) (no_attrs : A) (allow_any mixed : bool) (ms : list (member V D)).
    Hypothesis MF : Forall member_frame ms.

    Lemma at_frame i m : nth_error ms i = Some m -> member_frame m.
    Proof. intros N. rewrite Forall_forall in MF. apply MF. eapply nth_error_In; eauto. Qed.

    Lemma seq_finish_frame fields st h r h' :
      seq_finish_state ms fields st h = Ok (r, h') -> helper_ok h h'.
    Proof.
      unfold seq_finish_state. destruct st as [|i [d|]| |]; try (intros [= _ <-]; apply helper_refl).
      destruct (nth_error ms i) as [m|] eqn:N; [|discriminate]. intros H. bind H. bind H. injection H as _ <-.
      eapply fin_frame; [eapply at_frame; eauto|eauto].
    Qed.
    Lemma seq_flush_frame fields fb h r h' : seq_flush ms fields fb h = Ok (r, h') -> helper_ok h h'.
    Proof. destruct fb; cbn; [apply seq_finish_frame|intros [= _ <-]; apply helper_refl]. Qed.

    Definition hs_helper (hs : hstate (V:=V) (D:=D)) : dhelper := snd hs.

    Lemma seq_none_frame i m fields ev any fb h e ho hs :
      back ev e -> seq_none ms i m fields ev any fb h = Ok (ho, hs) -> hback ho e /\ helper_ok h (hs_helper hs).
    Proof.
      intros B. unfold seq_none.
      destruct (m_min m); [intros [= <- <-]; cbn; auto with frame|].
      destruct (m_occ m), (m_default m);
        try (intros [= <- <-]; cbn; auto with frame; fail).
      2:{ destruct (get_or_insert fb (SAt i None)) as [[]|]; intros [= <- <-]; cbn; auto with frame. }
      all: destruct fb as [[]|];
        try (intros [= <- <-]; cbn; auto with frame; fail);
        (intros H; bind H; apply seq_flush_frame in E;
         destruct (Nat.ltb _ _); injection H as <- <-; cbn; auto with frame).
    Qed.

    Lemma seq_handle_frame i m fields out fb h e ho hs :
      back (o_ev out) e -> seq_handle ms i m fields out fb h = Ok (ho, hs) -> hback ho e /\ helper_ok h (hs_helper hs).
    Proof.
      intros B. unfold seq_handle. destruct (o_art out).
      - apply seq_none_frame. exact B.
      - intros H. bind H. bind H. injection H as <- <-. apply seq_flush_frame in E. cbn. auto with frame.
      - intros H. bind H. injection H as <- <-. apply seq_flush_frame in E. cbn. auto with frame.
    Qed.

    Lemma seq_end_frame (a : A) hs ev any h e : back ev e -> helper_ok h (hs_helper hs) -> rframe h e (seq_end a hs ev any).
    Proof.
      intros B K o h'. unfold seq_end. destruct hs as [[[fields st] fb] h1]. intros [= <- <-]. cbn. auto.
    Qed.

    Lemma seq_loop_frame fuel (a : A) : forall hs e any retry afb,
      rframe (hs_helper hs) e (seq_loop elem allow_any mixed ms fuel a hs e any retry afb).
    Proof.
      induction fuel as [|fuel IH]; intros hs e any retry afb; [intros o h' [=]|].
      assert (IH' : forall h hs e' any retry afb, e' = e -> helper_ok h (hs_helper hs) ->
        rframe h e (seq_loop elem allow_any mixed ms fuel a hs e' any retry afb)).
      { intros h1 hs1 e1 x1 r1 f1 -> K o h' H. destruct (IH _ _ _ _ _ _ _ H) as [K' B].
        split; [eapply helper_trans; eauto|exact B]. }
      destruct hs as [[[fields st] fb] h]. cbn [hs_helper snd].
      assert (Run : forall i m (r : dresult V D), nth_error ms i = Some m -> rframe h e r ->
        rframe h e (let* (out, h1) := r in
          let* (ho, hs') := seq_handle ms i m fields out fb h1 in
          match ho with
          | HContinue e' x => seq_loop elem allow_any mixed ms fuel a hs' e' (any || x) retry afb
          | HBreak de x => seq_end a hs' de x
          end)).
      { intros i m r N F o h' H. bind H. destruct (F _ _ E) as [K B]. bind H.
        destruct (seq_handle_frame _ _ _ _ _ _ _ _ _ B E0) as [HB K'].
        assert (K2 : helper_ok h (hs_helper b0)) by (eapply helper_trans; eauto).
        destruct a1 as [e' x|de x]; cbn in HB.
        - eapply IH'; eauto.
        - eapply seq_end_frame; eauto. }
      assert (Rest : forall r : dresult (A * list (list V)) (sdes (V:=V) (D:=D) (A:=A)), rframe h e r ->
        rframe h e (if is_end e then
          let* (fields1, h1) := seq_flush ms fields fb h in
          let* (vals, h2) := finish_fields ms fields1 h1 in
          Ok (DOut (AData (a, vals)) (if elem then DNone else DContinue e) false, h2)
        else r)).
      { intros r F. destruct (is_end e); [|exact F]. intros o h' H. bind H. bind H. injection H as <- <-.
        apply seq_flush_frame in E. apply (finish_fields_frame _ MF) in E0. cbn.
        split; [eapply helper_trans; eauto|]. destruct elem; auto with frame. }
      cbn [seq_loop]. destruct st as [|i [d|]| |].
      - apply Rest. apply IH'; auto with frame.
      - destruct (nth_error ms i) as [m|] eqn:N; [|intros o h' [=]]. apply (Run i m _ N).
        apply next_frame. eapply at_frame; eauto.
      - apply Rest. destruct (nth_error ms i) as [m|] eqn:N; [|intros o h' [=]].
        destruct (mkind_eqb _ _ || _).
        + destruct (mkind_eqb _ _ && _); [apply IH'; auto with frame|]. apply (Run i m _ N).
          unfold seq_start. pose proof (at_frame _ _ N).
          destruct (m_kind m); first [apply tag_frame|apply init_frame]; auto.
        + destruct (mixed && is_chars e); apply seq_end_frame; cbn; auto with frame.
      - apply Rest. destruct (if has_any ms then afb else None); [apply IH'; auto with frame|].
        apply seq_end_frame; cbn; auto with frame.
      - intros o h' [=].
    Qed.

    Lemma seq_frame : respects (seq_deser from_start elem no_attrs allow_any mixed ms) /\
      gives_back (seq_deser from_start elem no_attrs allow_any mixed ms).
    Proof.
      assert (N : forall d h e, rframe h e (seq_next (A:=A) elem allow_any mixed ms d h e)).
      { intros d h e. apply seq_loop_frame. }
      assert (F : forall d h v h', seq_finish (A:=A) ms d h = Ok (v, h') -> helper_ok h h').
      { intros d h v h' H. unfold seq_finish in H. bind H. bind H. injection H as _ <-.
        apply seq_finish_frame in E. apply (finish_fields_frame _ MF) in E0. eapply helper_trans; eauto. }
      assert (I : forall h e, rframe h e (de_init (seq_deser from_start elem no_attrs allow_any mixed ms) h e)).
      { intros h e o h'. cbn. destruct elem.
        - unfold seq_init_element. destruct e; try (intros [= <- <-]; cbn; auto with frame; fail).
          + intros H. bind H. injection H as <- <-. cbn. split; [eapply SF; eauto|auto with frame].
          + intros H. bind H. bind H. injection H as <- <-. cbn.
            split; [eapply helper_trans; [eapply SF; eauto|eapply F; eauto]|auto with frame].
        - unfold seq_init_group. intros H. bind H. injection H as <- <-. cbn. eapply N; eauto. }
      exact (frame_of _ I N F).
    Qed.
  End Sequence.

  (** ** Choices *)
  Section Choice.
    Variables (elem allow_any mixed defaultable : bool) (ms : list (member V D)).
    Hypothesis MF : Forall member_frame ms.

    Lemma variant_default_frame m h r h' : member_frame m -> variant_default m h = Ok (r, h') -> helper_ok h h'.
    Proof.
      intros (_ & _ & F). unfold variant_default. destruct (m_occ m).
      - discriminate.
      - destruct (m_default m) as [df|]; [|discriminate]. intros H. bind H. injection H as _ <-.
        eapply F; eauto.
      - intros [= _ <-]. apply helper_refl.
      - destruct (m_min m); [intros [= _ <-]; apply helper_refl|]. destruct (m_default m) as [df|]; [|discriminate].
        intros H. bind H. injection H as _ <-. eapply push_frame; [|exact E]. intros h0 v h1. apply F. reflexivity.
      - destruct (m_default m) as [df|]; [|discriminate].
        intros H. bind H. injection H as _ <-. eapply arr_frame; [|exact E]. intros h0 v h1. apply F. reflexivity.
    Qed.

    Lemma keep_frame m vals (cur : option D) h r h' : member_frame m ->
      match cur with
      | Some d => let* (v, h1) := de_finish (m_deser m) d h in let* vs := store m vals v in Ok (vs, h1)
      | None => Ok (vals, h)
      end = Ok (r, h') -> helper_ok h h'.
    Proof.
      intros M. destruct cur as [d|]; [|intros [= _ <-]; apply helper_refl].
      intros H. bind H. bind H. injection H as _ <-. eapply fin_frame; eauto.
    Qed.

    Lemma enum_finish_frame st h r h' : enum_finish_state defaultable ms st h = Ok (r, h') -> helper_ok h h'.
    Proof.
      unfold enum_finish_state. destruct st as [|i vals [fb|] cur|v|]; try discriminate.
      - destruct defaultable; [|discriminate]. destruct ms as [|m l] eqn:Q; [discriminate|].
        apply variant_default_frame. inversion MF; auto.
      - destruct (nth_error ms i) as [m|] eqn:N; [|discriminate]. intros H. bind H. bind H.
        injection H as _ <-. pose proof (at_frame ms MF _ _ N) as M.
        apply (keep_frame m vals cur _ _ _ M) in E. apply (finish_field_frame _ _ _ _ _ M) in E0.
        eapply helper_trans; eauto.
      - intros [= _ <-]. apply helper_refl.
    Qed.

    Lemma back_or ev any e : back ev e -> hback (break_or_end elem ev any) e.
    Proof. intros B. unfold break_or_end. destruct elem; auto with frame. Qed.
    Lemma back_cor m ev any e : back ev e -> hback (continue_or_return m ev any) e.
    Proof. intros B. unfold continue_or_return. destruct (m_kind m); auto with frame. Qed.
    Local Hint Resolve back_or back_cor : frame.

    Lemma enum_handle_frame i m vals fb out h e ho st h' :
      member_frame m -> back (o_ev out) e ->
      enum_handle elem defaultable ms i m vals fb out h = Ok (ho, st, h') -> hback ho e /\ helper_ok h h'.
    Proof.
      intros M B. unfold enum_handle. destruct (o_art out) as [|v|d].
      - destruct (m_occ m); try discriminate; try (intros [= <- _ <-]; auto with frame; fail);
          (destruct fb, vals; try (intros [= <- _ <-]; auto with frame; fail);
           destruct (negb _ && _); intros [= <- _ <-]; auto with frame).
      - intros H. bind H. apply (keep_frame m vals fb _ _ _ M) in E. bind H.
        assert (Stay : @Ok kind (find_state (V:=V) (D:=D)) (from_event (o_ev out) (o_any out), EAt i a0 None None, b) = Ok (ho, st, h') ->
          hback ho e /\ helper_ok h h').
        { intros [= <- _ <-]. auto with frame. }
        assert (Leave : (let* (t, h2) := enum_finish_state defaultable ms (EAt i a0 None None) b in
            Ok (HBreak (o_ev out) (o_any out), EFin t, h2)) = @Ok kind (find_state (V:=V) (D:=D)) (ho, st, h') ->
          hback ho e /\ helper_ok h h').
        { intros L. apply obind_ok in L. destruct L as ([t h2] & L & X). injection X as <- _ <-.
          apply enum_finish_frame in L. split; [exact B|eapply helper_trans; eauto]. }
        destruct elem; [exact (Stay H)|]. destruct (m_occ m); try exact (Leave H);
          (destruct (m_max m); [exact (Stay H)|destruct (Nat.ltb _ _); [exact (Stay H)|exact (Leave H)]]).
      - intros H. bind H. apply (keep_frame m vals fb _ _ _ M) in E.
        destruct (m_occ m); injection H as <- _ <-; split; auto with frame;
          (destruct (match m_max m with Bounded max => _ | _ => _ end); auto with frame).
    Qed.

    Lemma try_groups_frame sel : forall l i e any h r, Forall member_frame l ->
      try_groups elem defaultable ms sel i l e any h = Ok r ->
      match r with
      | inl (ho, _, h') => hback ho e /\ helper_ok h h'
      | inr (e', _, h') => e' = e /\ helper_ok h h'
      end.
    Proof.
      induction l as [|m l IH]; cbn [try_groups]; intros i e any h r L H.
      - injection H as <-. auto with frame.
      - inversion L as [|? ? M L']. subst. destruct (sel (m_kind m)); [|eapply IH; eauto].
        bind H. destruct (init_frame _ _ _ M _ _ E) as [K B].
        apply obind_ok in H. destruct H as ([[ho st] h2] & H1 & H2).
        destruct (enum_handle_frame _ _ _ _ _ _ _ _ _ _ M B H1) as [HB K'].
        assert (K2 : helper_ok h h2) by (eapply helper_trans; eauto).
        destruct ho as [e' x|de x]; cbn in HB.
        + subst e'. apply IH in H2; auto. destruct r as [[[ho' st'] h3]|[[e3 x3] h3]];
            destruct H2; split; auto; eapply helper_trans; eauto.
        + injection H2 as <-. auto.
    Qed.

    Lemma find_tag_frame : forall l i e h j m, Forall member_frame l -> find_tag i l e h = Some (j, m) -> member_frame m.
    Proof.
      induction l as [|m l IH]; cbn; intros i e h j m' L; [discriminate|]. inversion L. subst.
      destruct (_ && _); [intros [= <- <-]; auto|apply IH; auto].
    Qed.
    Lemma first_text_frame : forall l i j m, Forall member_frame l -> first_text i l = Some (j, m) -> member_frame m.
    Proof.
      induction l as [|m l IH]; cbn; intros i j m' L; [discriminate|]. inversion L. subst.
      destruct (mkind_eqb _ _); [intros [= <- <-]; auto|apply IH; auto].
    Qed.

    Lemma find_suitable_frame e h ho st h' :
      find_suitable elem allow_any defaultable ms e h = Ok (ho, st, h') -> hback ho e /\ helper_ok h h'.
    Proof.
      unfold find_suitable.
      set (text := fun (e : event) (any : bool) (h : dhelper) =>
        match first_text 0 ms with
        | None => Ok (return_to_parent e (allow_any || any), EInit, h)
        | Some (i, m) =>
            let* (out, h1) := de_init (m_deser m) h e in
            let* (ho, st, h2) := enum_handle elem defaultable ms i m [] None out h1 in
            match ho with
            | HContinue e' _ => Ok (return_to_parent e' (allow_any || any), EInit, h2)
            | ho => Ok (ho, st, h2)
            end
        end : outcome kind (find_state (V:=V) (D:=D))).
      assert (Tx : forall any h1, helper_ok h h1 -> text e any h1 = Ok (ho, st, h') -> hback ho e /\ helper_ok h h').
      { intros any h1 K. unfold text. destruct (first_text 0 ms) as [[i m]|] eqn:Q.
        - pose proof (first_text_frame _ _ _ _ MF Q) as M. intros H. bind H.
          destruct (init_frame _ _ _ M _ _ E) as [K1 B].
          apply obind_ok in H. destruct H as ([[ho1 st1] h2] & H1 & H2).
          destruct (enum_handle_frame _ _ _ _ _ _ _ _ _ _ M B H1) as [HB K'].
          assert (K2 : helper_ok h h2) by (eapply helper_trans; [exact K|eapply helper_trans; eauto]).
          destruct ho1 as [e' x|de x]; cbn in HB; injection H2 as <- _ <-; split; auto.
          subst e'. cbn. auto with frame.
        - intros [= <- _ <-]. cbn. auto with frame. }
      destruct (is_tag e); [|apply Tx; apply helper_refl].
      destruct (find_tag 0 ms e h) as [[i m]|] eqn:Q.
      - pose proof (find_tag_frame _ _ _ _ _ _ MF Q) as M. intros H. bind H.
        destruct (init_frame _ _ _ M _ _ E) as [K1 B].
        destruct (enum_handle_frame _ _ _ _ _ _ _ _ _ _ M B H) as [HB K']. split; auto.
        eapply helper_trans; eauto.
      - intros H. apply obind_ok in H. destruct H as (r & H1 & H).
        pose proof (try_groups_frame _ _ _ _ _ _ _ MF H1) as R1.
        destruct r as [[[ho1 st1] h2]|[[e1 x1] h2]].
        + injection H as <- _ <-. exact R1.
        + destruct R1 as [-> K1]. apply obind_ok in H. destruct H as (r & H2 & H).
          pose proof (try_groups_frame _ _ _ _ _ _ _ MF H2) as R2.
          destruct r as [[[ho1 st1] h3]|[[e1 x2] h3]].
          * injection H as <- _ <-. destruct R2. split; auto. eapply helper_trans; eauto.
          * destruct R2 as [-> K2]. apply Tx in H; auto. eapply helper_trans; eauto.
    Qed.

    Lemma enum_end_frame st h0 h ev any e : back ev e -> helper_ok h0 h ->
      rframe h0 e (enum_end (V:=V) (D:=D) st h ev any).
    Proof. intros B K o h'. unfold enum_end. destruct st; intros [= <- <-]; auto. Qed.

    Lemma enum_loop_frame fuel : forall st h e, rframe h e (enum_loop elem allow_any mixed defaultable ms fuel st h e).
    Proof.
      induction fuel as [|fuel IH]; intros st h e; [intros o h' [=]|]. cbn [enum_loop].
      set (go := fun r : outcome kind (find_state (V:=V) (D:=D)) =>
        let* (ho, st', h') := r in
        match ho with
        | HContinue e' _ => enum_loop elem allow_any mixed defaultable ms fuel st' h' e'
        | HBreak de x => enum_end st' h' de x
        end).
      assert (Go : forall r, (forall ho st' h', r = Ok (ho, st', h') -> hback ho e /\ helper_ok h h') ->
        rframe h e (go r)).
      { intros r F o h' H. unfold go in H. apply obind_ok in H. destruct H as ([[ho st'] h1] & H1 & H).
        destruct (F _ _ _ H1) as [B K]. destruct ho as [e' x|de x]; cbn in B.
        - subst e'. destruct (IH _ _ _ _ _ H). split; auto. eapply helper_trans; eauto.
        - eapply enum_end_frame; eauto. }
      assert (Run : forall i m vals fb (r : dresult V D), nth_error ms i = Some m -> rframe h e r ->
        rframe h e (let* (out, h1) := r in go (enum_handle elem defaultable ms i m vals fb out h1))).
      { intros i m vals fb r N F o h' H. bind H. destruct (F _ _ E) as [K B].
        revert o h' H. apply Go. intros ho st' h' H.
        destruct (enum_handle_frame _ _ _ _ _ _ _ _ _ _ (at_frame ms MF _ _ N) B H). split; auto.
        eapply helper_trans; eauto. }
      assert (Rest : forall st (r : dresult (variant (V:=V)) (estate (V:=V) (D:=D))), rframe h e r ->
        rframe h e (if is_end e then
          let* (v, h1) := enum_finish_state defaultable ms st h in
          Ok (DOut (AData v) (if elem then DNone else DContinue e) false, h1) else r)).
      { intros st' r F. destruct (is_end e); [|exact F]. intros o h' H. bind H. injection H as <- <-.
        apply enum_finish_frame in E. split; auto. cbn. destruct elem; auto with frame. }
      destruct st as [|i vals fb [d|]|v|].
      - apply Rest. apply Go. apply find_suitable_frame.
      - destruct (nth_error ms i) as [m|] eqn:N; [|intros o h' [=]]. apply (Run i m _ _ _ N).
        apply next_frame. eapply at_frame; eauto.
      - apply Rest. destruct (is_tag e).
        + destruct (nth_error ms i) as [m|] eqn:N; [|intros o h' [=]]. apply (Run i m _ _ _ N).
          pose proof (at_frame ms MF _ _ N). destruct (m_kind m); first [apply tag_frame|apply init_frame]; auto.
        + destruct (mixed && is_chars e); apply enum_end_frame; auto with frame.
      - apply Rest. apply enum_end_frame; auto with frame.
      - intros o h' [=].
    Qed.

    Lemma enum_frame : respects (enum_deser from_start elem allow_any mixed defaultable ms) /\
      gives_back (enum_deser from_start elem allow_any mixed defaultable ms).
    Proof.
      assert (N : forall d h e, rframe h e (enum_next elem allow_any mixed defaultable ms d h e)).
      { intros d h e. apply enum_loop_frame. }
      apply frame_of; [|exact N|apply enum_finish_frame].
      intros h e o h'. cbn. destruct elem eqn:El.
      - unfold enum_init_element. destruct e; try (intros [= <- <-]; cbn; auto with frame; fail).
        + intros H. bind H. injection H as <- <-. cbn. split; [eapply SF; eauto|auto with frame].
        + intros H. bind H. bind H. injection H as <- <-. cbn. apply enum_finish_frame in E0.
          split; [eapply helper_trans; [eapply SF; eauto|eauto]|auto with frame].
      - unfold enum_init_group. intros H. bind H. injection H as <- <-. cbn. eapply N; eauto.
    Qed.
  End Choice.

  (** ** Contents *)
  Section Content.
    Variables (elem : bool) (no_attrs : A) (m : member V D).
    Hypothesis M : member_frame m.

    Lemma content_state_frame vals st h r h' : content_finish_state m vals st h = Ok (r, h') -> helper_ok h h'.
    Proof.
      unfold content_finish_state. destruct st; try (intros [= _ <-]; apply helper_refl).
      intros H. bind H. bind H. injection H as _ <-. eapply fin_frame; eauto.
    Qed.
    Lemma content_vals_frame vals h r h' : content_finish_vals m vals h = Ok (r, h') -> helper_ok h h'.
    Proof.
      destruct M as (_ & _ & F). unfold content_finish_vals. destruct (m_occ m).
      - discriminate.
      - destruct (m_default m) as [df|].
        + intros H. bind H. injection H as _ <-. unfold finish_default in E. destruct (hd_error vals).
          * injection E as _ <-. apply helper_refl.
          * eapply F; [reflexivity|exact E].
        + destruct vals; [discriminate|]. intros [= _ <-]. apply helper_refl.
      - intros [= _ <-]. apply helper_refl.
      - destruct (m_default m) as [df|].
        + apply push_frame. intros h0 v h1. apply F. reflexivity.
        + intros H. bind H. injection H as _ <-. apply helper_refl.
      - destruct (m_default m) as [df|].
        + apply arr_frame. intros h0 v h1. apply F. reflexivity.
        + intros H. bind H. injection H as _ <-. apply helper_refl.
    Qed.
    Lemma cdes_finish_frame (d : cdes (A:=A)) h r h' : cdes_finish m d h = Ok (r, h') -> helper_ok h h'.
    Proof.
      unfold cdes_finish. intros H. bind H. bind H. injection H as _ <-.
      apply content_state_frame in E. apply content_vals_frame in E0. eapply helper_trans; eauto.
    Qed.

    Lemma content_handle_frame vals out fb h e ho hs : back (o_ev out) e ->
      content_handle elem m vals out fb h = Ok (ho, hs) -> hback ho e /\ helper_ok h (snd hs).
    Proof.
      intros B. unfold content_handle. destruct (o_art out) as [|v|d].
      - destruct elem; [intros [= <- <-]; cbn; auto with frame|].
        destruct (_ || _); [intros [= <- <-]; cbn; auto with frame|].
        destruct (m_occ m); try (intros [= <- <-]; cbn; auto with frame; fail);
          (destruct (Nat.ltb _ _); intros [= <- <-]; cbn; auto with frame).
      - intros H. apply obind_ok in H. destruct H as ([vals1 h1] & E & H).
        assert (K : helper_ok h h1).
        { destruct fb; [eapply content_state_frame; eauto|injection E as _ <-; apply helper_refl]. }
        bind H. destruct elem; [injection H as <- <-; cbn; auto with frame|].
        destruct (m_occ m); try (injection H as <- <-; cbn; auto with frame; fail);
          (destruct (m_max m); [|destruct (Nat.ltb _ _)]; injection H as <- <-; cbn; auto with frame).
      - intros H. apply obind_ok in H. destruct H as ([vals1 h1] & E & H).
        assert (K : helper_ok h h1).
        { destruct fb; [eapply content_state_frame; eauto|injection E as _ <-; apply helper_refl]. }
        assert (Stop : hback (if elem then from_event_end (o_ev out) (o_any out) else HBreak (o_ev out) (o_any out)) e).
        { destruct elem; auto with frame. }
        destruct (m_occ m); try (injection H as <- <-; cbn; auto with frame; fail);
          (destruct (m_max m); [|destruct (Nat.ltb _ _)]; injection H as <- <-; cbn; auto with frame).
    Qed.

    Lemma content_end_frame (a : A) hs ev any h e : back ev e -> helper_ok h (snd hs) ->
      rframe h e (content_end elem m a hs ev any).
    Proof.
      destruct hs as [[[vals st] fb] h1]. intros B K o h'. cbn [snd] in K. unfold content_end.
      destruct (need_done elem m), (match fb with Some f => f | None => st end);
        try (intros [= <- <-]; auto; fail).
      intros H. bind H. injection H as <- <-. apply cdes_finish_frame in E. split; auto.
      eapply helper_trans; eauto.
    Qed.

    Lemma content_loop_frame fuel (a : A) : forall hs e, rframe (snd hs) e (content_loop elem m fuel a hs e).
    Proof.
      induction fuel as [|fuel IH]; intros hs e; [intros o h' [=]|].
      destruct hs as [[[vals st] fb] h]. cbn [content_loop snd].
      set (go := fun r : outcome kind (hout * chstate (V:=V) (D:=D)) =>
        let* (ho, hs') := r in
        match ho with
        | HContinue e' _ => content_loop elem m fuel a hs' e'
        | HBreak de x => content_end elem m a hs' de x
        end).
      assert (Run : forall fb (r : dresult V D), rframe h e r ->
        rframe h e (let* (out, h1) := r in go (content_handle elem m vals out fb h1))).
      { intros fb' r F o h' H. bind H. destruct (F _ _ E) as [K B]. unfold go in H.
        apply obind_ok in H. destruct H as ([ho hs] & H1 & H).
        destruct (content_handle_frame _ _ _ _ _ _ _ B H1) as [HB K'].
        assert (K2 : helper_ok h (snd hs)) by (eapply helper_trans; eauto).
        destruct ho as [e' x|de x]; cbn in HB.
        - subst e'. destruct (IH _ _ _ _ H). split; auto. eapply helper_trans; eauto.
        - eapply content_end_frame; eauto. }
      assert (Rest : forall r : dresult (A * list V) (cdes (V:=V) (D:=D) (A:=A)), rframe h e r ->
        rframe h e (if is_end e then
          let* (vs, h1) := content_finish_vals m vals h in
          Ok (DOut (AData (a, vs)) (if elem then DNone else DContinue e) false, h1) else r)).
      { intros r F. destruct (is_end e); [|exact F]. intros o h' H. bind H. injection H as <- <-.
        apply content_vals_frame in E. split; auto. cbn. destruct elem; auto with frame. }
      destruct st.
      - apply Rest. apply Run. apply init_frame. exact M.
      - apply Rest. apply Run. apply init_frame. exact M.
      - apply Run. apply next_frame. exact M.
      - apply Rest. apply content_end_frame; cbn; auto with frame.
      - intros o h' [=].
    Qed.

    Lemma content_frame : respects (cdes_deser from_start elem no_attrs m) /\
      gives_back (cdes_deser from_start elem no_attrs m).
    Proof.
      assert (N : forall d h e, rframe h e (cdes_next (A:=A) elem m d h e)).
      { intros d h e. apply content_loop_frame. }
      apply frame_of; [|exact N|apply cdes_finish_frame].
      intros h e o h'. cbn. destruct elem eqn:El.
      - unfold cdes_init_element. destruct e; try (intros [= <- <-]; cbn; auto with frame; fail).
        + intros H. bind H. injection H as <- <-. cbn. split; [eapply SF; eauto|auto with frame].
        + intros H. bind H. bind H. injection H as <- <-. cbn. apply cdes_finish_frame in E0.
          split; [eapply helper_trans; [eapply SF; eauto|eauto]|auto with frame].
      - unfold cdes_init_group. intros H. bind H. injection H as <- <-. cbn. eapply N; eauto.
    Qed.
  End Content.

  (** ** The elements of an [xs:all] *)
  Section All.
    Variables (elem : bool) (no_attrs : A) (allow_any : bool) (ms : list (member V D)).
    Hypothesis MF : Forall member_frame ms.

    Lemma all_state_frame fields st h r h' : all_finish_state ms fields st h = Ok (r, h') -> helper_ok h h'.
    Proof.
      unfold all_finish_state. destruct st; try (intros [= _ <-]; apply helper_refl).
      destruct (nth_error ms i) as [m|] eqn:N; [|discriminate].
      intros H. bind H. bind H. injection H as _ <-. eapply fin_frame; [eapply at_frame; eauto|eauto].
    Qed.

    Lemma all_handle_frame i m fields out fb h e ho hs : back (o_ev out) e ->
      all_handle ms i m fields out fb h = Ok (ho, hs) -> hback ho e /\ helper_ok h (snd hs).
    Proof.
      intros B. unfold all_handle.
      assert (Fl : forall r h', match fb with Some st => all_finish_state ms fields st h | None => Ok (fields, h) end
        = Ok (r, h') -> helper_ok h h').
      { destruct fb; [intros r h'; apply all_state_frame|intros r h' [= _ <-]; apply helper_refl]. }
      destruct (o_art out) as [|v|d].
      - intros [= <- <-]. cbn. destruct (m_kind m); auto with frame.
      - intros H. apply obind_ok in H. destruct H as ([f1 h1] & E & H). bind H. injection H as <- <-.
        apply Fl in E. cbn. auto with frame.
      - intros H. apply obind_ok in H. destruct H as ([f1 h1] & E & H). injection H as <- <-.
        apply Fl in E. cbn. auto with frame.
    Qed.

    Lemma all_groups_frame : forall l i e any fields fb h r, Forall member_frame l ->
      all_groups ms i l e any fields fb h = Ok r ->
      match r with
      | inl (ho, hs) => hback ho e /\ helper_ok h (snd hs)
      | inr (e', _, (_, _, h')) => e' = e /\ helper_ok h h'
      end.
    Proof.
      induction l as [|m l IH]; cbn [all_groups]; intros i e any fields fb h r L H.
      - injection H as <-. auto with frame.
      - inversion L as [|? ? M L']. subst. destruct (sel_group (m_kind m)); [|eapply IH; eauto].
        bind H. destruct (init_frame _ _ _ M _ _ E) as [K B].
        apply obind_ok in H. destruct H as ([ho hs] & H1 & H2).
        destruct (all_handle_frame _ _ _ _ _ _ _ _ _ B H1) as [HB K'].
        assert (K2 : helper_ok h (snd hs)) by (eapply helper_trans; eauto).
        destruct ho as [e' x|de x]; cbn in HB.
        + subst e'. destruct hs as [[[f3 st3] fb3] h3]. apply IH in H2; auto. cbn in K2.
          destruct r as [[ho' hs']|[[e4 x4] [[f4 fb4] h4]]];
            destruct H2; split; auto; eapply helper_trans; eauto.
        + injection H2 as <-. auto.
    Qed.

    Lemma all_find_frame e fields fb h ho hs :
      all_find allow_any ms e fields fb h = Ok (ho, hs) -> hback ho e /\ helper_ok h (snd hs).
    Proof.
      unfold all_find.
      set (text := fun (e : event) (any : bool) fields fb h =>
        match first_text 0 ms with
        | Some (i, m) =>
            let* (out, h1) := de_init (m_deser m) h e in
            all_handle ms i m fields out fb h1
        | None =>
            Ok (return_to_parent e (allow_any || any),
                (fields, match fb with Some st => st | None => LInit end, None, h))
        end : outcome kind (hout * lhstate (V:=V) (D:=D))).
      assert (Tx : forall any f1 fb1 h1, helper_ok h h1 -> text e any f1 fb1 h1 = Ok (ho, hs) ->
        hback ho e /\ helper_ok h (snd hs)).
      { intros any f1 fb1 h1 K. unfold text. destruct (first_text 0 ms) as [[i m]|] eqn:Q.
        - pose proof (first_text_frame _ _ _ _ MF Q) as M. intros H. bind H.
          destruct (init_frame _ _ _ M _ _ E) as [K1 B].
          destruct (all_handle_frame _ _ _ _ _ _ _ _ _ B H) as [HB K']. split; auto.
          eapply helper_trans; [exact K|eapply helper_trans; eauto].
        - intros [= <- <-]. cbn. auto with frame. }
      destruct (is_tag e); [|apply Tx; apply helper_refl].
      destruct (find_tag 0 ms e h) as [[i m]|] eqn:Q.
      - pose proof (find_tag_frame _ _ _ _ _ _ MF Q) as M. intros H. bind H.
        destruct (init_frame _ _ _ M _ _ E) as [K1 B].
        destruct (all_handle_frame _ _ _ _ _ _ _ _ _ B H) as [HB K']. split; auto.
        eapply helper_trans; eauto.
      - intros H. apply obind_ok in H. destruct H as (r & H1 & H).
        pose proof (all_groups_frame _ _ _ _ _ _ _ _ MF H1) as R1.
        destruct r as [[ho1 hs1]|[[e1 x1] [[f1 fb1] h1]]].
        + injection H as <- <-. exact R1.
        + destruct R1 as [-> K1]. apply Tx in H; auto.
    Qed.

    Lemma all_end_frame (a : A) hs ev any h e : back ev e -> helper_ok h (snd hs) ->
      rframe h e (all_end (V:=V) (D:=D) a hs ev any).
    Proof.
      destruct hs as [[[fields st] fb] h1]. intros B K o h'. cbn. intros [= <- <-]. auto.
    Qed.

    Lemma all_loop_frame fuel (a : A) : forall hs e, rframe (snd hs) e (all_loop elem allow_any ms fuel a hs e).
    Proof.
      induction fuel as [|fuel IH]; intros hs e; [intros o h' [=]|].
      destruct hs as [[[fields st] fb] h]. cbn [all_loop snd].
      set (go := fun r : outcome kind (hout * lhstate (V:=V) (D:=D)) =>
        let* (ho, hs') := r in
        match ho with
        | HContinue e' _ => all_loop elem allow_any ms fuel a hs' e'
        | HBreak de x => all_end a hs' de x
        end).
      assert (Go : forall r, (forall ho hs', r = Ok (ho, hs') -> hback ho e /\ helper_ok h (snd hs')) ->
        rframe h e (go r)).
      { intros r F o h' H. unfold go in H. apply obind_ok in H. destruct H as ([ho hs'] & H1 & H).
        destruct (F _ _ H1) as [B K]. destruct ho as [e' x|de x]; cbn in B.
        - subst e'. destruct (IH _ _ _ _ H). split; auto. eapply helper_trans; eauto.
        - eapply all_end_frame; eauto. }
      assert (Rest : forall r : dresult (A * list (list V)) (ldes (V:=V) (D:=D) (A:=A)), rframe h e r ->
        rframe h e (if is_end e then
          let* (vals, h1) := finish_fields ms fields h in
          Ok (DOut (AData (a, vals)) (if elem then DNone else DContinue e) false, h1) else r)).
      { intros r F. destruct (is_end e); [|exact F]. intros o h' H. bind H. injection H as <- <-.
        apply (finish_fields_frame _ MF) in E. split; auto. cbn. destruct elem; auto with frame. }
      destruct st as [| |i d|].
      - apply Rest. apply Go. apply all_find_frame.
      - apply Rest. apply Go. apply all_find_frame.
      - destruct (nth_error ms i) as [m|] eqn:N; [|intros o h' [=]]. pose proof (at_frame ms MF _ _ N) as M.
        intros o h' H. bind H. destruct (next_frame _ _ _ _ M _ _ E) as [K B]. revert o h' H. apply Go.
        intros ho hs' H. destruct (all_handle_frame _ _ _ _ _ _ _ _ _ B H). split; auto.
        eapply helper_trans; eauto.
      - intros o h' [=].
    Qed.

    Lemma all_frame : respects (all_deser from_start elem no_attrs allow_any ms) /\
      gives_back (all_deser from_start elem no_attrs allow_any ms).
    Proof.
      assert (N : forall d h e, rframe h e (all_next (A:=A) elem allow_any ms d h e)).
      { intros d h e. apply all_loop_frame. }
      assert (F : forall d h v h', all_finish (A:=A) ms d h = Ok (v, h') -> helper_ok h h').
      { intros d h v h' H. unfold all_finish in H. bind H. bind H. injection H as _ <-.
        apply all_state_frame in E. apply (finish_fields_frame _ MF) in E0. eapply helper_trans; eauto. }
      apply frame_of; [|exact N|exact F].
      intros h e o h'. cbn. destruct elem eqn:El.
      - unfold all_init_element. destruct e; try (intros [= <- <-]; cbn; auto with frame; fail).
        + intros H. bind H. injection H as <- <-. cbn. split; [eapply SF; eauto|auto with frame].
        + intros H. bind H. bind H. injection H as <- <-. cbn. apply F in E0.
          split; [eapply helper_trans; [eapply SF; eauto|eauto]|auto with frame].
      - unfold all_init_group. intros H. bind H. injection H as <- <-. cbn. eapply N; eauto.
    Qed.
  End All.

  (** ** Structs without content *)
  Lemma empty_frame allow_any mixed : respects (empty_deser from_start allow_any mixed) /\
    gives_back (empty_deser from_start allow_any mixed).
  Proof.
    apply frame_of.
    - intros h e o h'. cbn. unfold empty_init. destruct e; try (intros [= <- <-]; cbn; auto with frame; fail);
        (intros H; bind H; injection H as <- <-; cbn; split; [eapply SF; eauto|auto with frame]).
    - intros d h e o h'. cbn. unfold empty_next. destruct (is_end e); [|destruct (mixed && is_chars e)];
        intros [= <- <-]; cbn; auto with frame.
    - intros d h v h' [= _ <-]. apply helper_refl.
  Qed.
End Frame.
