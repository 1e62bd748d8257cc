(** Property C49: mixed content. *)
From Verif Require Import Utf8 SerHelperModel DeModel TextModel TextSpec TextProofs TextProps WrapModel WrapSpec
  MixedModel MixedSpec MixedProofs.
Local Open Scope string_scope.

Definition item_ser (v : bytes) : cser := CBegin (Some "b") (write_string v).
Definition item_des : deser bytes bytes := content_deser no_charref utf8_valid parse_string.

(** C49.  Full statement: value and text come back unchanged.  It is false for the
    empty text, which is read as no text at all. *)
Theorem C49_empty_text_refuted : exists evs h, 
  emits (mxser_next cser_next) (MxInner (Some "") (item_ser "v")) helper_default evs h /\
  exists evs', reread evs = Some evs' /\
    reads_until (mixed_deser item_des no_charref utf8_valid) None dhelper_default (evs' ++ [EEnd "a"]) (Mixed "v" None).
Proof.
  do 2 eexists. split.
  { eapply em_step; [reflexivity|]. eapply em_step; [reflexivity|]. eapply em_step; [reflexivity|].
    eapply em_step; [reflexivity|]. eapply em_end. reflexivity. }
  eexists. split; [vm_compute; reflexivity|].
  eapply ru_more; [reflexivity|reflexivity|discriminate|].
  eapply ru_more; [reflexivity|reflexivity|discriminate|].
  eapply ru_more; [reflexivity|reflexivity|discriminate|].
  eapply ru_finish; [reflexivity|reflexivity|reflexivity].
Qed.
Print Assumptions C49_empty_text_refuted.

(** Reading: for every inner deserializer that takes exactly the events of its
    value, the text after it is all the character data before the next tag. *)
Theorem C49_reads : forall (T D : Type) (des : deser T D) charref h evs v h1 body e s,
  consumes des None h evs v h1 ->
  forallb flat body = true -> is_tag e = true -> dh_event h1 e <> None ->
  chars charref utf8_valid body = Some s ->
  reads_until (mixed_deser des charref utf8_valid) None h (evs ++ body ++ [e])
    (Mixed v (if has_chars body then Some s else None)).
Proof. intros T D des charref h evs v h1 body e s HC HF HE HN HS. exact (mixed_reads des charref None h evs v h1 HC body e s HF HE HN HS). Qed.
Print Assumptions C49_reads.

(** Round trip of every text that is not empty, and of no text, for every inner
    serializer and deserializer that round-trip the value. *)
Theorem C49_round_trip_partial : forall (S T D : Type) (next : ser_next S) (des : deser T D) charref
  st hs evs0 last hs' evs' dh v dh1 after e,
  emits next st hs (evs0 ++ [last]) hs' -> (match last with EText _ => false | _ => true end) = true ->
  reread (evs0 ++ [last]) = Some evs' -> consumes des None dh evs' v dh1 ->
  after <> Some "" -> (forall t, after = Some t -> utf8_valid t = true) ->
  is_tag e = true -> dh_event dh1 e <> None ->
  exists evs evs'', emits (mxser_next next) (MxInner after st) hs evs hs' /\ reread evs = Some evs'' /\
    reads_until (mixed_deser des charref utf8_valid) None dh (evs'' ++ [e]) (Mixed v after).
Proof.
  intros S T D next des charref st hs evs0 last hs' evs' dh v dh1 after e HE HL HR HC HN HU HT HX.
  pose proof (mixed_emits next after st hs _ hs' HE) as HM.
  destruct after as [t|].
  - destruct (reread_written charref t (HU t eq_refl)) as (body & B1 & B2 & B3).
    eexists. exists (evs' ++ body)%list. split; [exact HM|]. split; [exact (reread_app_text evs0 last (escape t) body evs' HL HR B1)|].
    assert (HF : forallb flat body = true /\ has_chars body = true).
    { split.
      - clear - B3. induction body as [|x l IH]; [reflexivity|]. cbn in B3 |- *. apply andb_true_iff in B3. destruct B3 as [H1 H2].
        rewrite (IH H2), andb_true_r. destruct x; try discriminate; reflexivity.
      - destruct body as [|x body]; [cbn in B2; congruence|]. cbn in B3. destruct x; try discriminate B3; reflexivity. }
    destruct HF as [HF HH]. rewrite <- app_assoc.
    pose proof (C49_reads T D des charref dh evs' v dh1 body e t HC HF HT HX B2) as H. rewrite HH in H. exact H.
  - eexists. exists evs'. split; [exact HM|]. rewrite app_nil_r. split; [exact HR|].
    exact (C49_reads T D des charref dh evs' v dh1 [] e "" HC eq_refl HT HX eq_refl).
Qed.
Print Assumptions C49_round_trip_partial.

Example C49_example : exists hs' dh1,
  emits cser_next (item_ser "v") helper_default ([EStart "b" []; EText "v"] ++ [EEnd "b"]) hs' /\
  reread ([EStart "b" []; EText "v"] ++ [EEnd "b"]) = Some [EStart "b" []; EText "v"; EEnd "b"] /\
  consumes item_des None dhelper_default [EStart "b" []; EText "v"; EEnd "b"] "v" dh1 /\
  dh_event dh1 (EStart "c" []) <> None.
Proof.
  do 2 eexists. split; [|split; [reflexivity|split]].
  - eapply em_step; [reflexivity|]. eapply em_step; [reflexivity|]. eapply em_step; [reflexivity|]. eapply em_end. reflexivity.
  - eapply co_more; [reflexivity|reflexivity|discriminate|]. eapply co_more; [reflexivity|reflexivity|discriminate|].
    eapply co_last; reflexivity.
  - discriminate.
Qed.

(** The [unreachable!()] of [finish] is not reached: the initial state is never
    handed out (part of C18). *)
Theorem C18_mixed_partial : forall (T D : Type) (des : deser T D) charref s h e d ev any h',
  mixed_next des charref utf8_valid s h e = Ok (DOut (ADes d) ev any, h') -> d <> MdInit.
Proof.
  intros T D des charref s h e d ev any h' H. unfold mixed_next in H.
  assert (HT : forall v a x h0 e0, md_text charref utf8_valid v a x h0 e0 = Ok (DOut (ADes d) ev any, h') -> d <> MdInit (T := T) (D := D)).
  { intros v a x h0 e0 HM. unfold md_text in HM. destruct (match x with Some d0 => _ | None => _ end) as [[o h1]|k|]; try discriminate.
    injection HM as HM _ _ _. destruct (o_art o); [|discriminate|]; injection HM as <-; discriminate. }
  destruct s as [|d0|v a x]; [| |exact (HT _ _ _ _ _ H)].
  - destruct (de_init des h e) as [[o h1]|k|]; try discriminate. destruct (o_art o) as [|v|d1]; [discriminate| |].
    + destruct (o_ev o); [injection H as <- _ _ _; discriminate|injection H as <- _ _ _; discriminate|exact (HT _ _ _ _ _ H)].
    + injection H as <- _ _ _. discriminate.
  - destruct (de_next des d0 h e) as [[o h1]|k|]; try discriminate. destruct (o_art o) as [|v|d1]; [discriminate| |].
    + destruct (o_ev o); [injection H as <- _ _ _; discriminate|injection H as <- _ _ _; discriminate|exact (HT _ _ _ _ _ H)].
    + injection H as <- _ _ _. discriminate.
Qed.
Print Assumptions C18_mixed_partial.
