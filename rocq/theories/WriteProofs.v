(** The generated serializers write the document of a value. *)
From Verif Require Import Utf8 WriteModel WriteSpec DocSpec GenSpec TextSpec DocProofs DocTypeProofs.
Local Open Scope string_scope.
Local Open Scope list_scope.

(** ** Draining a serializer *)
Section Drain.
  Context {S : Type}.
  Inductive drains (next : S -> helper -> option (outcome kind event) * S * helper)
    : S -> helper -> list event -> helper -> Prop :=
  | drains_end s h s' h' : next s h = (None, s', h') -> drains next s h [] h'
  | drains_step s h e s1 h1 evs h' : next s h = (Some (Ok e), s1, h1) ->
      drains next s1 h1 evs h' -> drains next s h (e :: evs) h'.

  Definition refines (next next' : S -> helper -> option (outcome kind event) * S * helper) : Prop :=
    forall s h r s' h', next s h = (r, s', h') -> r <> Some Panic -> next' s h = (r, s', h').

  Lemma drains_refines next next' s h evs h' : refines next next' -> drains next s h evs h' ->
    drains next' s h evs h'.
  Proof.
    intros R D. induction D as [s h s' h' E|s h e s1 h1 evs h' E D IH].
    - eapply drains_end, R; [exact E|discriminate].
    - eapply drains_step; [eapply R; [exact E|discriminate]|exact IH].
  Qed.

  Lemma drains_run next s h evs h' : drains next s h evs h' -> forall calls, length evs < calls ->
    ser_run next calls s h = SRDone evs h'.
  Proof.
    intros D. induction D as [s h s' h' E|s h e s1 h1 evs h' E D IH]; intros calls L;
      destruct calls as [|calls]; try (cbn in L; lia); cbn [ser_run].
    - rewrite E; reflexivity.
    - rewrite E, IH by (cbn in L; lia). reflexivity.
  Qed.

  Lemma drains_det next s h evs h' : drains next s h evs h' -> forall evs2 h2,
    drains next s h evs2 h2 -> evs = evs2 /\ h' = h2.
  Proof.
    intros D. induction D as [s h s' h' E|s h e s1 h1 evs h' E D IH]; intros evs2 h2 D2;
      inversion D2 as [? ? ? ? E2|? ? ? ? ? ? ? E2 D2']; subst; rewrite E in E2; try discriminate.
    - injection E2 as _ <-; auto.
    - injection E2 as <- <- <-. destruct (IH _ _ D2') as [<- <-]; auto.
  Qed.
End Drain.

Section Machine.
  Context {T A : Type}.
  Notation val := (val T A).
  Variable ff : flat_flags.
  Variable no_attrs : A.
  Variable env : nat -> tdef.
  Variable tag : option bytes -> bytes -> bytes.
  Variable opening : nat -> bool -> bytes -> val -> helper -> outcome kind (list attr) * helper.
  Variable closing : nat -> helper -> helper.
  Variable to_bytes : nat -> T -> helper -> outcome kind (option bytes) * helper.

  Notation wst := (wst T A).
  Notation wnext := (wnext (T:=T) (A:=A) ff env tag opening closing to_bytes).
  Notation serializer := (serializer (T:=T) (A:=A) ff env to_bytes).
  Notation field_start := (field_start (T:=T) (A:=A) ff env to_bytes).
  Notation field_next := (field_next (T:=T) (A:=A) ff env to_bytes).
  Notation first_state := (first_state (T:=T) (A:=A) ff env tag to_bytes).
  Notation next_state_of := (next_state_of (T:=T) (A:=A) ff env tag to_bytes).
  Notation written := (written ff no_attrs env tag opening closing to_bytes).

  Lemma pending_refines {I S} mk (next next' : ser_next S) : refines next next' ->
    forall items h r it h', ipending (I:=I) mk next items h = (r, it, h') -> r <> Some Panic ->
    ipending mk next' items h = (r, it, h').
  Proof.
    intros R items. induction items as [|x items IH]; intros h r it h' E N; cbn [ipending] in *; [exact E|].
    destruct (mk x) as [s|k|]; [|exact E|exact E].
    destruct (next s h) as [[r1 s1] h1] eqn:E1. pose proof (R _ _ _ _ _ E1) as Q.
    destruct r1 as [o|].
    - assert (o <> Panic) by (intros ->; injection E as <- _ _; congruence).
      rewrite Q by congruence. exact E.
    - rewrite Q by discriminate. apply IH; assumption.
  Qed.
  Lemma iser_refines {I S} mk (next next' : ser_next S) : refines next next' ->
    refines (iser_next (I:=I) mk next) (iser_next mk next').
  Proof.
    intros R st h r it h' E N. destruct st as [items|items s|]; cbn [iser_next] in *.
    - eapply pending_refines; eassumption.
    - destruct (next s h) as [[r1 s1] h1] eqn:E1. pose proof (R _ _ _ _ _ E1) as Q.
      destruct r1 as [o|].
      + assert (o <> Panic) by (intros ->; injection E as <- _ _; congruence).
        rewrite Q by congruence. exact E.
      + rewrite Q by discriminate. eapply pending_refines; eassumption.
    - exact E.
  Qed.
  Lemma field_refines next next' : refines next next' -> refines (field_next next) (field_next next').
  Proof.
    intros R f h r f' h' E N. destruct f as [s|t it]; cbn [WriteModel.field_next] in *.
    - destruct (next s h) as [[r1 s1] h1] eqn:E1. injection E as -> <- <-.
      rewrite (R _ _ _ _ _ E1 N). reflexivity.
    - destruct (iser_next (serializer t false) next it h) as [[r1 s1] h1] eqn:E1. injection E as -> <- <-.
      rewrite (iser_refines _ _ _ R _ _ _ _ _ E1 N). reflexivity.
  Qed.

  Lemma wnext_more f : refines (wnext f) (wnext (S f)).
  Proof.
    induction f as [|f IH]; intros s h r s' h' E N.
    { cbn in E. injection E as <- _ _. congruence. }
    remember (S f) as f1 eqn:Ef. cbn [WriteModel.wnext]. rewrite Ef in E at 1. cbn [WriteModel.wnext] in E.
    destruct s as [c|fr nd v st]; [exact E|].
    destruct st as [|i fd| |]; try exact E.
    - destruct (first_state fr nd v) as [st'|k|]; try exact E.
      destruct fr as [[[ty name] root]|]; [exact E|]. subst f1. apply IH; assumption.
    - destruct (field_next (wnext f) fd h) as [[r1 fd1] h1] eqn:E1.
      assert (r1 <> Some Panic) as N1.
      { intros ->. injection E as <- _ _. congruence. }
      subst f1. rewrite (field_refines _ _ IH _ _ _ _ _ E1 N1).
      destruct r1 as [[e|k|]|]; try exact E.
      destruct (next_state_of fr nd v i) as [st'|k|]; try exact E. apply IH; assumption.
  Qed.
  Lemma wnext_le f f' : f <= f' -> refines (wnext f) (wnext f').
  Proof.
    intros L. induction L as [|f' L IH]; [intros s h r s' h' E _; exact E|].
    intros s h r s' h' E N. apply wnext_more; [|exact N]. apply IH; assumption.
  Qed.
  Lemma drains_le f f' s h evs h' : f <= f' -> drains (wnext f) s h evs h' -> drains (wnext f') s h evs h'.
  Proof. intros L. apply drains_refines, wnext_le, L. Qed.
  Lemma fdrains_le f f' fd h evs h' : f <= f' -> drains (field_next (wnext f)) fd h evs h' ->
    drains (field_next (wnext f')) fd h evs h'.
  Proof. intros L. apply drains_refines, field_refines, wnext_le, L. Qed.

  (** ** Single steps *)

  Lemma drain_field F fr nd v i fd h evs h1 st' evs2 h' :
    drains (field_next (wnext F)) fd h evs h1 -> next_state_of fr nd v i = Ok st' ->
    drains (wnext F) (WNode fr nd v st') h1 evs2 h' ->
    drains (wnext (S F)) (WNode fr nd v (WAt i fd)) h (evs ++ evs2) h'.
  Proof.
    intros D N D2. induction D as [fd h fd' h1 E|fd h e fd1 h0 evs h1 E D IH].
    - cbn [app]. inversion D2 as [sx hx s' hy E2|sx hx e s1 h2 evs3 hy E2 D3]; subst.
      + eapply drains_end. cbn [WriteModel.wnext]. rewrite E, N, E2. reflexivity.
      + eapply drains_step; [|eapply drains_le; [|exact D3]; lia].
        cbn [WriteModel.wnext]. rewrite E, N, E2. reflexivity.
    - cbn [app]. eapply drains_step; [|apply IH; exact D2].
      cbn [WriteModel.wnext]. rewrite E. reflexivity.
  Qed.
  Lemma drain_inner F nd v h st' evs h' : first_state None nd v = Ok st' ->
    drains (wnext F) (WNode None nd v st') h evs h' ->
    drains (wnext (S F)) (WNode None nd v WInit) h evs h'.
  Proof.
    intros N D2. inversion D2 as [sx hx s' hy E2|sx hx e s1 h2 evs3 hy E2 D3]; subst.
    - eapply drains_end. cbn [WriteModel.wnext]. rewrite N, E2. reflexivity.
    - eapply drains_step; [|eapply drains_le; [|exact D3]; lia].
      cbn [WriteModel.wnext]. rewrite N, E2. reflexivity.
  Qed.
  Lemma drain_done F fr nd v h : drains (wnext (S F)) (WNode fr nd v WDone) h [] h.
  Proof. eapply drains_end. reflexivity. Qed.
  Lemma drain_end F ty name root nd v h :
    drains (wnext (S F)) (WNode (Some (ty, name, root)) nd v WEnd) h [EEnd name] (closing ty h).
  Proof. eapply drains_step; [reflexivity|apply drain_done]. Qed.
  Lemma drain_start F ty name root nd v st' h attrs h1 evs h' :
    first_state (Some (ty, name, root)) nd v = Ok st' -> opening ty root name v h = (Ok attrs, h1) ->
    final_state (T:=T) (A:=A) (Some (ty, name, root)) nd = WEnd ->
    drains (wnext (S F)) (WNode (Some (ty, name, root)) nd v st') h1 evs h' ->
    drains (wnext (S F)) (WNode (Some (ty, name, root)) nd v WInit) h (EStart name attrs :: evs) h'.
  Proof.
    intros N O Fi D. eapply drains_step; [|exact D]. cbn [WriteModel.wnext]. rewrite N, O, Fi. reflexivity.
  Qed.
  Lemma drain_empty F ty name root nd v h attrs h1 :
    first_state (Some (ty, name, root)) nd v = Ok WDone -> opening ty root name v h = (Ok attrs, h1) ->
    final_state (T:=T) (A:=A) (Some (ty, name, root)) nd = WDone ->
    drains (wnext (S F)) (WNode (Some (ty, name, root)) nd v WInit) h [EEmpty name attrs] (closing ty h1).
  Proof.
    intros N O Fi. eapply drains_step; [|apply drain_done]. cbn [WriteModel.wnext]. rewrite N, O, Fi. reflexivity.
  Qed.

  (** ** Texts *)
  Lemma drain_text F name ty t h data h' : to_bytes ty t h = (Ok data, h') -> text_ok data = true ->
    drains (wnext (S F)) (WText (CBegin (Some name) (to_bytes ty t))) h
      (match data with None => [EEmpty name []] | _ => EStart name [] :: text_events data ++ [EEnd name] end) h'.
  Proof.
    intros E O. destruct data as [data|].
    - cbn [text_ok] in O. apply Bool.negb_true_iff in O.
      eapply drains_step. { cbn [WriteModel.wnext cser_next]. rewrite E, O. reflexivity. }
      destruct data as [|c s]; cbn [text_events app].
      + eapply drains_step; [reflexivity|]. eapply drains_end. reflexivity.
      + eapply drains_step; [reflexivity|]. eapply drains_step; [reflexivity|]. eapply drains_end. reflexivity.
    - eapply drains_step. { cbn [WriteModel.wnext cser_next]. rewrite E. reflexivity. }
      eapply drains_end. reflexivity.
  Qed.
  Lemma drain_content_text F ty t h data h' : to_bytes ty t h = (Ok data, h') -> text_ok data = true ->
    drains (wnext (S F)) (WText (CBegin None (to_bytes ty t))) h (text_events data) h'.
  Proof.
    intros E O. destruct data as [data|].
    - cbn [text_ok] in O. apply Bool.negb_true_iff in O.
      destruct data as [|c s]; cbn [text_events].
      + eapply drains_end. cbn [WriteModel.wnext cser_next]. rewrite E, O. reflexivity.
      + eapply drains_step. { cbn [WriteModel.wnext cser_next]. rewrite E, O. reflexivity. }
        eapply drains_end. reflexivity.
    - eapply drains_end. cbn [WriteModel.wnext cser_next]. rewrite E. reflexivity.
  Qed.

  (** ** Lists *)
  Lemma drain_single F s h evs h' : drains (wnext F) s h evs h' ->
    drains (field_next (wnext F)) (WSingle s) h evs h'.
  Proof.
    intros D. induction D as [s h s' h' E|s h e s1 h1 evs h' E D IH].
    - eapply drains_end. cbn [WriteModel.field_next]. rewrite E. reflexivity.
    - eapply drains_step; [|exact IH]. cbn [WriteModel.field_next]. rewrite E. reflexivity.
  Qed.
  Lemma drain_emitting F t s h evs h1 items evs2 h' : drains (wnext F) s h evs h1 ->
    drains (field_next (wnext F)) (WIter t (IPending items)) h1 evs2 h' ->
    drains (field_next (wnext F)) (WIter t (IEmitting items s)) h (evs ++ evs2) h'.
  Proof.
    intros D D2. induction D as [s h s' h1 E|s h e s1 h0 evs h1 E D IH].
    - cbn [app]. inversion D2 as [sx hx s'' hy E2|sx hx e s1 h2 evs3 hy E2 D3]; subst.
      + eapply drains_end. cbn [WriteModel.field_next iser_next] in *. rewrite E. exact E2.
      + eapply drains_step; [|exact D3]. cbn [WriteModel.field_next iser_next] in *. rewrite E. exact E2.
    - cbn [app]. eapply drains_step; [|apply IH; exact D2]. cbn [WriteModel.field_next iser_next]. rewrite E.
      reflexivity.
  Qed.
  Lemma drain_item F t x s h evs h1 items evs2 h' : serializer t false x = Ok s ->
    drains (wnext F) s h evs h1 ->
    drains (field_next (wnext F)) (WIter t (IPending items)) h1 evs2 h' ->
    drains (field_next (wnext F)) (WIter t (IPending (x :: items))) h (evs ++ evs2) h'.
  Proof.
    intros M D D2. pose proof (drain_emitting F t s h evs h1 items evs2 h' D D2) as Q.
    remember (evs ++ evs2) as all eqn:Eall. clear Eall D D2.
    inversion Q as [s0 h0 s' h2 E|s0 h0 e s1 h2 evs0 h2' E Q']; subst.
    - eapply drains_end. cbn [WriteModel.field_next iser_next ipending] in *. rewrite M. exact E.
    - cbn [WriteModel.field_next iser_next] in E.
      destruct (wnext F s h) as [[r s2] h3] eqn:Es.
      destruct r as [o|].
      + injection E as -> <- <-. eapply drains_step; [|exact Q'].
        cbn [WriteModel.field_next iser_next ipending]. rewrite M, Es. reflexivity.
      + eapply drains_step; [|exact Q'].
        cbn [WriteModel.field_next iser_next ipending]. rewrite M, Es. exact E.
  Qed.

  (** The serializer of one value. *)
  Definition goes (t : target) (root : bool) (v : val) (h : helper) (evs : list event) (h' : helper) : Prop :=
    exists s F, serializer t root v = Ok s /\ drains (wnext F) s h evs h'.

  Lemma drain_items t (one : writes val) vals :
    (forall v, In v vals -> forall h evs h', one v h evs h' -> goes t false v h evs h') ->
    forall h evs h', each one vals h evs h' ->
    exists F, drains (field_next (wnext F)) (WIter t (IPending vals)) h evs h'.
  Proof.
    induction vals as [|v vals IH]; intros H h evs h' W; cbn [each] in W.
    - destruct W as [-> ->]. exists 0. eapply drains_end. reflexivity.
    - destruct W as [evs1 [h1 [evs2 [-> [W1 W2]]]]].
      destruct (H v (or_introl eq_refl) _ _ _ W1) as [s [F1 [M D1]]].
      destruct (IH (fun v I => H v (or_intror I)) _ _ _ W2) as [F2 D2].
      exists (F1 + F2). eapply drain_item; [exact M| |].
      + eapply drains_le; [|exact D1]; lia.
      + eapply fdrains_le; [|exact D2]; lia.
  Qed.

  Lemma drain_occurs t o root (one : writes val) vals h evs h' :
    fits_occ o vals ->
    (forall v h evs h', In v vals -> one v h evs h' ->
       goes t (match o with OSingle => root | _ => false end) v h evs h') ->
    each one vals h evs h' ->
    exists fd F, field_start t o root vals = Ok fd /\ drains (field_next (wnext F)) fd h evs h'.
  Proof.
    intros O H W. destruct o as [| | | |n]; cbn [fits_occ] in O.
    - contradiction.
    - destruct vals as [|v [|]]; try discriminate O. cbn [each] in W.
      destruct W as [evs1 [h1 [evs2 [-> [W1 [-> ->]]]]]]. rewrite app_nil_r.
      destruct (H v _ _ _ (or_introl eq_refl) W1) as [s [F [M D]]].
      exists (WSingle s), F. cbn [WriteModel.field_start]. rewrite M. split; [reflexivity|].
      apply drain_single, D.
    - destruct (drain_items t one vals (fun v I h e h' => H v h e h' I) _ _ _ W) as [F D].
      exists (WIter t (IPending vals)), F. split; [reflexivity|exact D].
    - destruct (drain_items t one vals (fun v I h e h' => H v h e h' I) _ _ _ W) as [F D].
      exists (WIter t (IPending vals)), F. split; [reflexivity|exact D].
    - destruct (drain_items t one vals (fun v I h e h' => H v h e h' I) _ _ _ W) as [F D].
      exists (WIter t (IPending vals)), F. split; [reflexivity|exact D].
  Qed.

  (** ** Fields and groups *)
  Section Parts.
    Variable telement : nat -> val -> Prop.
    Variable welement : nat -> bool -> bytes -> writes val.
    Notation particle_typed := (particle_typed ff no_attrs telement).
    Notation particle_writes := (particle_writes ff no_attrs tag welement).
    Notation field_typed := (field_typed ff no_attrs telement).
    Notation field_writes := (field_writes ff no_attrs tag welement).
    Notation target_of := (target_of tag).

    Definition particle_goes (p : particle) : Prop :=
      forall root v h evs h', particle_typed p v -> particle_writes root p v h evs h' ->
        goes (target_of p) root v h evs h'.
    Definition field_goes (p : particle) : Prop :=
      forall root vals h evs h', field_typed p vals -> field_writes root p vals h evs h' ->
        exists fd F, field_start (target_of p) (occ_of p) root vals = Ok fd /\
          drains (field_next (wnext F)) fd h evs h'.

    Lemma group_root c ps root root' v h evs h' : goes (ToGroup c ps) root v h evs h' ->
      goes (ToGroup c ps) root' v h evs h'.
    Proof. intros H. exact H. Qed.

    Lemma field_goes_of p : particle_goes p -> field_goes p.
    Proof.
      intros P root vals h evs h' [O Ty] W. unfold WriteSpec.field_writes in W.
      eapply drain_occurs; [exact O| |exact W]. intros v h1 e1 h2 I Wv.
      rewrite Forall_forall in Ty. pose proof (P _ _ _ _ _ (Ty v I) Wv) as G.
      destruct p as [min max ns name ty|min max c ps]; [|exact G].
      cbn [target_of] in *. cbn [p_min p_max] in G. unfold occ_of in *. cbn [p_min p_max lowered] in *.
      destruct (once min max) eqn:On.
      - rewrite (proj2 (single_once min max) On). rewrite Bool.andb_true_r in G. exact G.
      - rewrite Bool.andb_false_r in G.
        destruct (from_occurs min max) eqn:Eo; try exact G.
        apply single_once in Eo. congruence.
    Qed.

    Definition state_at (fr : option frame) (ps : list particle) (a : A) (fields : list (list val)) (i : nat)
      : outcome kind (wstate (T:=T) (A:=A)) :=
      match nth_error ps i with
      | Some p => match nth_error fields i with
                  | Some vals => at_field ff env tag to_bytes i p false vals
                  | None => Panic
                  end
      | None => Ok (final_state fr (NFields ps))
      end.
    Lemma first_is fr ps a fields : first_state fr (NFields ps) (VStruct a fields) = state_at fr ps a fields 0.
    Proof. destruct ps as [|p ps], fields; reflexivity. Qed.
    Lemma next_is fr ps a fields i :
      next_state_of fr (NFields ps) (VStruct a fields) i = state_at fr ps a fields (S i).
    Proof. reflexivity. Qed.

    Lemma fields_go fr ps a fields ps2 : forall ps1 f1 f2 h evs h' evs2 h2 F1,
      ps = ps1 ++ ps2 -> fields = f1 ++ f2 -> length ps1 = length f1 ->
      (forall p, In p ps2 -> field_goes p) ->
      Forall2 (fun part vals => part vals) (map field_typed ps2) f2 ->
      in_turn (map (field_writes false) ps2) f2 h evs h' ->
      drains (wnext F1) (WNode fr (NFields ps) (VStruct a fields) (final_state fr (NFields ps))) h' evs2 h2 ->
      exists st F, state_at fr ps a fields (length ps1) = Ok st /\
        drains (wnext F) (WNode fr (NFields ps) (VStruct a fields) st) h (evs ++ evs2) h2.
    Proof.
      induction ps2 as [|p ps2 IH]; intros ps1 f1 f2 h evs h' evs2 h2 F1 Ep Ef L G Ty W D.
      - cbn [map] in *. inversion Ty; subst f2. cbn [in_turn] in W. destruct W as [-> ->].
        exists (final_state fr (NFields ps)), F1. split; [|exact D].
        unfold state_at. replace (nth_error ps (length ps1)) with (@None particle); [reflexivity|].
        symmetry. apply nth_error_None. rewrite Ep, app_nil_r. lia.
      - cbn [map] in *. inversion Ty as [|? vals ? f2' T1 T2]; subst f2.
        cbn [in_turn] in W. destruct W as [e1 [h1 [e2 [-> [W1 W2]]]]].
        destruct (G p (or_introl eq_refl) _ _ _ _ _ T1 W1) as [fd [Fa [M Da]]].
        destruct (IH (ps1 ++ [p]) (f1 ++ [vals]) f2' h1 e2 h' evs2 h2 F1) as [st [Fb [Sb Db]]]; auto.
        { rewrite <- app_assoc; exact Ep. } { rewrite <- app_assoc; exact Ef. }
        { rewrite !app_length, L; reflexivity. } { intros q I; apply G; right; exact I. }
        exists (WAt (length ps1) fd), (S (Fa + Fb)). split.
        + unfold state_at. rewrite Ep, nth_error_app2, Nat.sub_diag by lia. cbn [nth_error].
          rewrite Ef, L, nth_error_app2, Nat.sub_diag by lia. cbn [nth_error].
          unfold at_field. rewrite M. rewrite <- L. reflexivity.
        + rewrite <- app_assoc. eapply drain_field.
          * eapply fdrains_le; [|exact Da]; lia.
          * rewrite next_is. rewrite app_length in Sb. cbn [length] in Sb. rewrite Nat.add_1_r in Sb. exact Sb.
          * eapply drains_le; [|exact Db]; lia.
    Qed.

    (** A group, up to the state after its content. *)
    Lemma group_goes fr c ps w h evs h' evs2 h2 F1 : (forall p, In p ps -> field_goes p) ->
      group_typed c (map field_typed ps) w ->
      group_writes c (map (field_writes (is_choice c && frame_root fr)) ps) w h evs h' ->
      drains (wnext F1) (WNode fr (raw_node c ps) w (final_state fr (raw_node c ps))) h' evs2 h2 ->
      exists st F, first_state fr (raw_node c ps) w = Ok st /\
        drains (wnext F) (WNode fr (raw_node c ps) w st) h (evs ++ evs2) h2.
    Proof.
      intros G Ty W D. destruct w as [t|a t|a fields|i vals]; cbn [group_typed] in Ty; try contradiction.
      - destruct Ty as [Ec Ty]. cbn [group_writes] in W. destruct W as [_ W].
        unfold raw_node in *. rewrite Ec in *. cbn [andb] in W. rewrite first_is.
        eapply (fields_go fr ps a fields ps [] [] fields); eauto.
      - destruct Ty as [Ec [part [Np Ty]]]. cbn [group_writes] in W. destruct W as [_ [wpart [Nw W]]].
        unfold raw_node in *. rewrite Ec in *. cbn [andb] in W, Nw.
        rewrite nth_error_map in Np. destruct (nth_error ps i) as [p|] eqn:Ep; [|discriminate].
        cbn [option_map] in Np. injection Np as <-. rewrite nth_error_map, Ep in Nw. cbn [option_map] in Nw.
        injection Nw as <-.
        destruct (G p (nth_error_In _ _ Ep) _ _ _ _ _ Ty W) as [fd [Fa [M Da]]].
        exists (WAt i fd), (S (Fa + F1)). split.
        + cbn [WriteModel.first_state]. rewrite Ep. unfold at_field. rewrite M. reflexivity.
        + eapply drain_field; [eapply fdrains_le; [|exact Da]; lia|reflexivity|].
          eapply drains_le; [|exact D]; lia.
    Qed.

    Lemma raw_goes c ps root w h evs h' : (forall p, In p ps -> field_goes p) ->
      group_typed c (map field_typed ps) w ->
      group_writes c (map (field_writes false) ps) w h evs h' ->
      goes (ToContent c ps) root w h evs h'.
    Proof.
      intros G Ty W. destruct (group_goes None c ps w h evs h' [] h' 1) as [st [F [M D]]]; auto.
      { cbn [frame_root]. rewrite Bool.andb_false_r. exact W. }
      { replace (final_state (T:=T) (A:=A) None (raw_node c ps)) with (WDone (T:=T) (A:=A)) by reflexivity.
        apply drain_done. }
      exists (WNode None (raw_node c ps) w WInit), (S F). split; [reflexivity|].
      rewrite app_nil_r in D. eapply drain_inner; eassumption.
    Qed.

    (** A struct around a content type, up to the state after its content. *)
    Lemma content_goes fr min max c ps a vals h evs h' evs2 h2 F1 : (forall p, In p ps -> field_goes p) ->
      fits_occ (from_occurs min max) vals ->
      Forall (group_typed c (map field_typed ps)) vals ->
      each (group_writes c (map (field_writes false) ps)) vals h evs h' ->
      drains (wnext F1) (WNode fr (NContent min max c ps) (VStruct a [vals])
        (final_state fr (NContent min max c ps))) h' evs2 h2 ->
      exists st F, first_state fr (NContent min max c ps) (VStruct a [vals]) = Ok st /\
        drains (wnext F) (WNode fr (NContent min max c ps) (VStruct a [vals]) st) h (evs ++ evs2) h2.
    Proof.
      intros G O Ty W D.
      destruct (drain_occurs (ToContent c ps) (from_occurs min max) false
        (group_writes c (map (field_writes false) ps)) vals h evs h') as [fd [Fa [M Da]]]; [exact O| |exact W|].
      { intros v h1 e1 h3 I Wv. rewrite Forall_forall in Ty.
        assert (goes (ToContent c ps) false v h1 e1 h3) as Q by (apply raw_goes; auto).
        destruct (from_occurs min max); exact Q. }
      exists (WAt 0 fd), (S (Fa + F1)). split.
      - cbn [WriteModel.first_state]. rewrite M. reflexivity.
      - eapply drain_field; [eapply fdrains_le; [|exact Da]; lia|reflexivity|].
        eapply drains_le; [|exact D]; lia.
    Qed.

    Hypothesis elements_go : forall ty root name v h evs h', telement ty v -> welement ty root name v h evs h' ->
      goes (ToElement ty name) root v h evs h'.

    Lemma particles_go p : particle_goes p.
    Proof.
      induction p as [min max ns name ty|min max c ps IH] using particle_ind'; intros root v h evs h' Ty W.
      - apply elements_go; assumption.
      - cbn [WriteSpec.particle_typed WriteSpec.particle_writes] in Ty, W.
        destruct Ty as [w [Ev Ty]]. destruct W as [w' [Ev' W]].
        assert (w' = w) as ->.
        { unfold packed in Ev, Ev'. rewrite Ev in Ev'. destruct (flat_for ff c); congruence. }
        clear Ev'. assert (forall p, In p ps -> field_goes p) as G.
        { intros q I. apply field_goes_of. rewrite Forall_forall in IH. apply IH, I. }
        unfold goes. cbn [target_of WriteModel.serializer].
        unfold packed in Ev. unfold group_node. destruct (flat_for ff c); subst v.
        + eapply (raw_goes c ps root w); assumption.
        + destruct (content_goes None 1 (Bounded 1) c ps no_attrs [w] h evs h' [] h' 1) as [st [F [M D]]]; auto.
          { reflexivity. }
          { cbn [each]. exists evs, h', []. rewrite app_nil_r. auto. }
          { apply drain_done. }
          eexists. exists (S F). split; [reflexivity|].
          rewrite app_nil_r in D. eapply drain_inner; eassumption.
    Qed.
    Lemma fields_goes p : field_goes p.
    Proof. apply field_goes_of, particles_go. Qed.
  End Parts.

  (** ** Types *)
  Hypothesis sound : forall ty attributed min max c ps, env ty = TComplex attributed min max c ps ->
    (max = Bounded 0 -> min = 0) /\ (is_choice c = true -> ps <> []).

  Variable ok : nat -> val -> Prop.

  Lemma written_goes n : forall ty root name v h evs h', typed ff no_attrs env ok n ty v ->
    written n ty root name v h evs h' -> goes (ToElement ty name) root v h evs h'.
  Proof.
    induction n as [|n IH]; intros ty root name v h evs h' Ty W; [contradiction|].
    cbn [typed WriteSpec.written] in Ty, W. destruct Ty as [_ Ty]. unfold goes. cbn [WriteModel.serializer].
    pose proof (fields_goes (typed ff no_attrs env ok n) (written n) IH) as G.
    destruct (env ty) as [| |attributed min max c ps] eqn:Ee.
    - destruct W as [t [data [-> [B [O ->]]]]]. eexists. exists 1. split; [reflexivity|].
      apply drain_text; assumption.
    - destruct W as [a [t [attrs [h1 [data [h2 [-> [Op [B [O [-> ->]]]]]]]]]]].
      eexists. exists 3. split; [reflexivity|].
      eapply drain_start; [reflexivity|exact Op|reflexivity|].
      eapply drain_field; [|reflexivity|].
      + apply drain_single. apply drain_content_text; eassumption.
      + apply drain_end.
    - destruct (sound _ _ _ _ _ _ Ee) as [Bz Cn].
      destruct (nothing_allowed max ps) eqn:No.
      + destruct W as [a [attrs [h1 [-> [Op [-> ->]]]]]].
        eexists. exists 1. split; [reflexivity|]. unfold complex_node.
        rewrite flattened_direct. unfold direct, once.
        assert (is_choice c = true -> match max with Bounded 0 => True | _ => False end) as Hc.
        { intros Ec. specialize (Cn Ec). destruct ps; [congruence|]. destruct max as [|[|]]; try discriminate. exact I. }
        destruct (match min with 1 => match max with Bounded 1 => true | _ => false end | _ => false end
                  && flat_for ff c && negb (is_choice c && attributed)) eqn:Di.
        * apply Bool.andb_true_iff in Di. destruct Di as [Di _]. apply Bool.andb_true_iff in Di. destruct Di as [Di _].
          assert (ps = []) as ->.
          { destruct min as [|[|]]; try discriminate. destruct max as [|[|[|]]]; try discriminate.
            cbn in No. destruct ps; [reflexivity|discriminate]. }
          assert (is_choice c = false) as Ec by (destruct (is_choice c); [elim (Cn eq_refl); reflexivity|reflexivity]).
          unfold raw_node. rewrite Ec. apply drain_empty; auto.
        * assert (has_content min max ps = false) as ->.
          { unfold nothing_allowed in No. unfold has_content.
            destruct ps as [|p ps]; [destruct (from_occurs min max); reflexivity|].
            destruct max as [|[|m]]; try discriminate. rewrite (Bz eq_refl). reflexivity. }
          apply drain_empty; auto.
      + destruct W as [attrs [h1 [body [h2 [Op [W [-> ->]]]]]]].
        unfold complex_node. rewrite flattened_direct.
        destruct (direct ff attributed min max c) eqn:Di.
        * assert (final_state (T:=T) (A:=A) (Some (ty, name, root)) (raw_node c ps) = WEnd) as Fi.
          { unfold raw_node. destruct (is_choice c); [reflexivity|].
            destruct ps; [destruct max as [|[|]]; discriminate|reflexivity]. }
          destruct (group_goes (typed ff no_attrs env ok n) (written n) (Some (ty, name, root)) c ps v h1 body h2
            [EEnd name] (closing ty h2) 1) as [st [F [M D]]].
          { intros p _; apply G. } { exact Ty. } { exact W. } { rewrite Fi. apply drain_end. }
          eexists. exists (S F). split; [reflexivity|].
          eapply drain_start; [exact M|exact Op|exact Fi|]. eapply drains_le; [|exact D]; lia.
        * rewrite (content_has min max ps No). destruct Ty as [a [vals [-> [O Ty]]]].
          destruct W as [a' [vals' [E W]]]. injection E as <- <-.
          destruct (content_goes (typed ff no_attrs env ok n) (written n) (Some (ty, name, root)) min max c ps a vals
            h1 body h2 [EEnd name] (closing ty h2) 1) as [st [F [M D]]].
          { intros p _; apply G. } { exact O. } { exact Ty. } { exact W. } { apply drain_end. }
          eexists. exists (S F). split; [reflexivity|].
          eapply drain_start; [exact M|exact Op|reflexivity|]. eapply drains_le; [|exact D]; lia.
  Qed.

  Lemma written_unique n n' ty root name v h evs h' evs2 h2 : typed ff no_attrs env ok n ty v ->
    typed ff no_attrs env ok n' ty v ->
    written n ty root name v h evs h' -> written n' ty root name v h evs2 h2 -> evs = evs2 /\ h' = h2.
  Proof.
    intros Ty Ty' W W2. destruct (written_goes _ _ _ _ _ _ _ _ Ty W) as [s [F [M D]]].
    destruct (written_goes _ _ _ _ _ _ _ _ Ty' W2) as [s' [F' [M' D']]].
    rewrite M in M'. injection M' as <-.
    eapply drains_det; [eapply drains_le; [|exact D]|eapply drains_le; [|exact D']]; [apply Nat.le_max_l|apply Nat.le_max_r].
  Qed.

  Lemma serialize_written n ty name v h evs h' : typed ff no_attrs env ok n ty v ->
    written n ty true name v h evs h' ->
    exists F, forall fuel calls, F <= fuel -> length evs < calls ->
      serialize ff env tag opening closing to_bytes fuel calls ty name v h = SRDone evs h'.
  Proof.
    intros Ty W. destruct (written_goes _ _ _ _ _ _ _ _ Ty W) as [s [F [M D]]].
    exists F. intros fuel calls LF LC. unfold serialize. rewrite M.
    apply drains_run; [|exact LC]. eapply drains_le; eassumption.
  Qed.

  (** ** Every value has a document *)
  Section Total.
    Hypothesis opens : forall ty root name v h, ok ty v -> env ty <> TSimple ->
      exists attrs h', opening ty root name v h = (Ok attrs, h').
    Hypothesis texts : forall ty t v h, ok ty v -> val_text v = Some t ->
      exists data h', to_bytes ty t h = (Ok data, h') /\ text_ok data = true.

    Lemma each_total {X} (one : writes X) xs : (forall x, In x xs -> forall h, exists evs h', one x h evs h') ->
      forall h, exists evs h', each one xs h evs h'.
    Proof.
      induction xs as [|x xs IH]; intros H h; cbn [each].
      - exists [], h; auto.
      - destruct (H x (or_introl eq_refl) h) as [e1 [h1 W1]].
        destruct (IH (fun y I => H y (or_intror I)) h1) as [e2 [h2 W2]]. eauto 8.
    Qed.
    Lemma in_turn_total {X} (tys : list (X -> Prop)) (parts : list (writes X)) xs :
      Forall2 (fun (t : X -> Prop) (part : writes X) => forall x, t x -> forall h, exists evs h', part x h evs h') tys parts ->
      Forall2 (fun (t : X -> Prop) x => t x) tys xs ->
      forall h, exists evs h', in_turn parts xs h evs h'.
    Proof.
      intros P. revert xs. induction P as [|t part tys parts H P IH]; intros xs Q h; inversion Q; subst; cbn [in_turn].
      - exists [], h; auto.
      - match goal with K : t ?y |- _ => destruct (H y K h) as [e1 [h1 W1]] end.
        match goal with K : Forall2 _ tys ?ys |- _ => destruct (IH ys K h1) as [e2 [h2 W2]] end. eauto 8.
    Qed.
    Lemma group_total c (tys : list (list val -> Prop)) (parts : list (writes (list val))) v :
      Forall2 (fun (t : list val -> Prop) (part : writes (list val)) =>
        forall x, t x -> forall h, exists evs h', part x h evs h') tys parts ->
      group_typed c tys v -> forall h, exists evs h', group_writes c parts v h evs h'.
    Proof.
      intros P Ty h. destruct v as [t|a t|a fields|i vals]; cbn [group_typed group_writes] in *; try contradiction.
      - destruct Ty as [Ec Ty]. destruct (in_turn_total _ _ _ P Ty h) as [evs [h' W]]. eauto.
      - destruct Ty as [Ec [t [N Ty]]].
        assert (exists part, nth_error parts i = Some part /\
          (forall x, t x -> forall h, exists evs h', part x h evs h')) as [part [N' Q]].
        { clear Ty. revert i N. induction P as [|t0 p0 tys parts H P IH]; intros i N; destruct i; try discriminate; cbn [nth_error] in *.
          - injection N as <-. eauto.
          - apply IH, N. }
        destruct (Q _ Ty h) as [evs [h' W]]. eauto 6.
    Qed.

    Section PartsTotal.
      Variable telement : nat -> val -> Prop.
      Variable welement : nat -> bool -> bytes -> writes val.
      Hypothesis elements : forall ty root name v, telement ty v -> forall h, exists evs h',
        welement ty root name v h evs h'.

      Lemma particle_total p : forall root v, particle_typed ff no_attrs telement p v ->
        forall h, exists evs h', particle_writes ff no_attrs tag welement root p v h evs h'.
      Proof.
        induction p as [min max ns name ty|min max c ps IH] using particle_ind'; intros root v Ty h.
        - apply elements, Ty.
        - cbn [particle_typed particle_writes] in *. destruct Ty as [w [-> Ty]].
          assert (exists evs h', group_writes c (map (fun p => each (particle_writes ff no_attrs tag welement false p)) ps)
            w h evs h') as [evs [h' W]]; [eapply group_total; [|exact Ty]|].
          + clear Ty. induction IH as [|p ps H _ IHl]; cbn [map]; constructor; [|exact IHl].
            intros vals [_ Tv]. apply each_total. intros x I. rewrite Forall_forall in Tv. apply H, Tv, I.
          + eauto.
      Qed.
      Lemma fields_total root ps : Forall2 (fun (t : list val -> Prop) (part : writes (list val)) =>
        forall x, t x -> forall h, exists evs h', part x h evs h')
        (map (field_typed ff no_attrs telement) ps) (map (field_writes ff no_attrs tag welement root) ps).
      Proof.
        induction ps as [|p ps IH]; cbn [map]; constructor; [|exact IH].
        intros vals [_ Tv]. apply each_total. intros x I. rewrite Forall_forall in Tv. apply particle_total, Tv, I.
      Qed.
    End PartsTotal.

    Lemma written_total n : forall ty root name v, typed ff no_attrs env ok n ty v ->
      forall h, exists evs h', written n ty root name v h evs h'.
    Proof.
      induction n as [|n IH]; intros ty root name v Ty h; [contradiction|].
      cbn [typed WriteSpec.written] in *. destruct Ty as [K Ty]. destruct (env ty) as [| |attributed min max c ps] eqn:Ety.
      - destruct Ty as [t ->]. destruct (texts ty t _ h K eq_refl) as [data [h' [B O]]]. eexists. exists h', t, data. auto.
      - destruct Ty as [a [t ->]]. destruct (opens ty root name (VSimple a t) h K) as [attrs [h1 Op]]; [congruence|].
        destruct (texts ty t _ h1 K eq_refl) as [data [h2 [B O]]]. do 2 eexists. exists a, t, attrs, h1, data, h2.
        repeat split; eauto.
      - destruct (opens ty root name v h K) as [attrs [h1 Op]]; [congruence|]. destruct (nothing_allowed max ps).
        + destruct Ty as [a ->]. do 2 eexists. exists a, attrs, h1. repeat split; eauto.
        + destruct (direct ff attributed min max c).
          * assert (exists body h2, group_writes c (map (field_writes ff no_attrs tag (written n) (is_choice c && root)) ps)
              v h1 body h2) as [body [h2 W]]. { eapply group_total; [apply fields_total, IH|exact Ty]. }
            do 2 eexists. exists attrs, h1, body, h2. repeat split; eauto.
          * destruct Ty as [a [vals [-> [_ Ty]]]].
            assert (exists body h2, each (group_writes c (map (field_writes ff no_attrs tag (written n) false) ps)) vals
              h1 body h2) as [body [h2 W]].
            { apply each_total. intros x I. rewrite Forall_forall in Ty. specialize (Ty x I). intros h3.
              eapply group_total; [apply fields_total, IH|exact Ty]. }
            do 2 eexists. exists attrs, h1, body, h2. repeat split; eauto.
    Qed.
  End Total.

  (** After an error there are no more events. *)
  Lemma error_ends f s h k s' h' : wnext f s h = (Some (Err k), s', h') ->
    exists s2, wnext 1 s' h' = (None, s2, h').
  Proof.
    revert s h s' h'. induction f as [|f IH]; intros s h s' h' E; [discriminate|].
    cbn [WriteModel.wnext] in E. destruct s as [c|fr nd v st].
    - destruct (cser_next c h) as [[r c'] h1] eqn:Ec. injection E as -> <- <-.
      assert (c' = CDone) as ->.
      { destruct c as [name value|name data|name|]; cbn [cser_next] in Ec.
        - destruct (value h) as [[[d|]|k'|] h2]; try (injection Ec as _ <- _; reflexivity).
          destruct (contains_cdata_end d); [injection Ec as _ <- _; reflexivity|].
          destruct name; [discriminate|]. unfold cser_data in Ec. destruct d; discriminate.
        - unfold cser_data in Ec. destruct data, name; discriminate.
        - discriminate.
        - discriminate. }
      cbn. eauto.
    - assert (D : forall h, exists s2, wnext 1 (WNode fr nd v WDone) h = (None, s2, h)) by (intros; cbn; eauto).
      destruct st as [|i fd| |].
      + destruct (first_state fr nd v) as [st'|k'|]; [|injection E as _ <- <-; apply D|discriminate E].
        destruct fr as [[[ty name] root]|].
        * destruct (opening ty root name v h) as [[attrs|k'|] h1];
            [match type of E with match ?q with _ => _ end = _ => destruct q end; discriminate E|injection E as _ <- <-; apply D|discriminate E].
        * eapply IH, E.
      + destruct (field_next (wnext f) fd h) as [[r fd'] h1].
        destruct r as [[e|k'|]|]; [discriminate E|injection E as _ <- <-; apply D|discriminate E|].
        destruct (next_state_of fr nd v i) as [st'|k'|]; [eapply IH, E|injection E as _ <- <-; apply D|discriminate E].
      + destruct fr as [[[ty name] root]|]; discriminate E.
      + discriminate E.
  Qed.
End Machine.
