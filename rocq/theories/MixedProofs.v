From Verif Require Import Utf8 SerHelperModel DeModel TextModel TextSpec TextProofs WrapModel WrapSpec MixedModel MixedSpec.
Local Open Scope string_scope.

(** ** Writing *)
Section Ser.
  Context {S : Type} (next : ser_next S).

  Lemma mx_text_emits after h :
    match mx_text (S := S) (IPending (match after with Some t => [t] | None => [] end)) h with
    | (None, _, h') => after = None /\ h' = h
    | (Some (Ok e), st, h') => exists t, after = Some t /\ e = EText (escape t) /\ h' = h /\
        emits (mxser_next next) st h' [] h
    | _ => False
    end.
  Proof.
    destruct after as [t|]; cbn; [|split; reflexivity].
    exists t. split; [reflexivity|]. split; [reflexivity|]. split; [reflexivity|].
    eapply em_end. reflexivity.
  Qed.

  Lemma mixed_emits after s h evs h' : emits next s h evs h' ->
    emits (mxser_next next) (MxInner after s) h
      (evs ++ match after with Some t => [EText (escape t)] | None => [] end) h'.
  Proof.
    induction 1 as [s h s' h' E|s h e s1 h1 evs h' E HE IH].
    - cbn [app]. destruct after as [t|]; cbn.
      + eapply em_step; [cbn; rewrite E; reflexivity|]. eapply em_end. reflexivity.
      + eapply em_end. cbn. rewrite E. reflexivity.
    - cbn [app]. eapply em_step; [|exact IH]. cbn. rewrite E. reflexivity.
  Qed.
End Ser.

(** ** Re-reading *)
Lemma reread_app_text evs e t body evs' : (match e with EText _ => false | _ => true end) = true ->
  reread (evs ++ [e]) = Some evs' -> tokenise t = Some body ->
  reread ((evs ++ [e]) ++ [EText t]) = Some (evs' ++ body)%list.
Proof.
  intros HE. unfold reread. generalize "" as acc. revert evs'.
  induction evs as [|x evs IH]; intros evs' acc H HT.
  - cbn [app] in *. destruct e; try discriminate HE; cbn [reread_from append] in *; rewrite ?HT;
      (destruct (tokenise acc); [|discriminate]); cbn in H; injection H as <-; rewrite <- ?app_assoc; reflexivity.
  - cbn [app] in *. destruct x; cbn [reread_from] in *; try (apply IH; assumption);
      (destruct (tokenise acc) as [a|]; [|discriminate]);
      (destruct (reread_from "" (evs ++ [e])) as [b|] eqn:EB; [|discriminate]); injection H as <-;
      rewrite (IH b "" EB HT), <- app_assoc; reflexivity.
Qed.

(** ** Reading *)
Lemma pop_event h e : dh_event (dh_pop h) e = dh_event h e.
Proof. unfold dh_event. rewrite pop_idem. reflexivity. Qed.

Section Des.
  Context {T D : Type} (des : deser T D) (charref : bytes -> option bytes).
  Notation md := (mixed_deser des charref utf8_valid).

  Lemma mixed_text body : forall v any (d : option bytes) h e, forallb flat body = true ->
    is_tag e = true -> dh_event h e <> None ->
    forall s, chars charref utf8_valid body = Some s ->
    reads_until md (Some (MdTextAfter v any (match d with Some x => Some (Some x) | None => None end))) h (body ++ [e])
      (Mixed v (match d with Some x => Some (x ++ s) | None => if has_chars body then Some s else None end)).
  Proof.
    induction body as [|x body IH]; intros v any d h e HF HE HN s HC.
    - injection HC as <-. cbn [app has_chars existsb].
      destruct (dh_event h e) as [h1|] eqn:EE; [|congruence].
      destruct d as [x|].
      + rewrite append_nil_r. eapply ru_data; [exact EE|]. cbn [step md mixed_deser de_next]. unfold mixed_next, md_text.
        rewrite (text_stop charref (Some x) h1 e HE). reflexivity.
      + eapply ru_finish; [exact EE| |].
        * cbn [step md mixed_deser de_next]. unfold mixed_next, md_text. rewrite (text_stop charref None h1 e HE). reflexivity.
        * reflexivity.
    - cbn [forallb] in HF. apply andb_true_iff in HF. destruct HF as [F1 F2]. rewrite chars_cons in HC.
      destruct (chars charref utf8_valid [x]) as [a|] eqn:EA; [|discriminate].
      destruct (chars charref utf8_valid body) as [b|] eqn:EB; [|discriminate]. injection HC as <-.
      assert (HN' : dh_event (dh_pop h) e <> None) by (rewrite pop_event; exact HN).
      pose proof (flat_event h x F1) as EE. cbn [app].
      assert (CASES : (exists d', piece charref utf8_valid x = Some (Ok a) /\ d' = (match d with Some y => y | None => "" end ++ a) /\
                         has_chars (x :: body) = true) \/
                      (piece charref utf8_valid x = None /\ a = "" /\ has_chars (x :: body) = has_chars body)).
      { destruct x; try discriminate F1; cbn in EA |- *.
        - left. eexists. split; [|split; reflexivity]. destruct (utf8_valid raw); [|discriminate].
          destruct (unescape charref raw); [|discriminate]. injection EA as <-. rewrite append_nil_r. reflexivity.
        - left. eexists. split; [|split; reflexivity]. destruct (utf8_valid raw); [|discriminate].
          injection EA as <-. rewrite append_nil_r. reflexivity.
        - right. injection EA as <-. auto.
        - left. eexists. split; [|split; reflexivity]. destruct (utf8_valid raw); [|discriminate].
          change (String "&" (raw ++ ";")) with ("&" ++ raw ++ ";") in EA.
          destruct (unescape charref ("&" ++ raw ++ ";")) as [u|] eqn:EU; [|discriminate]. injection EA as <-. rewrite append_nil_r.
          cbn in EU. rewrite EU. reflexivity.
        - right. injection EA as <-. auto.
        - right. injection EA as <-. auto.
        - right. injection EA as <-. auto. }
      destruct CASES as [(d' & P1 & P2 & P3)|(P1 & P2 & P3)].
      + eapply (ru_more md _ h x (dh_pop h) (MdTextAfter v any (Some (Some d'))) DNone any (dh_pop h)); [exact EE| |discriminate|].
        * cbn [step mixed_deser de_next]. unfold mixed_next, md_text. rewrite P2. destruct d; unfold text_next; rewrite P1; reflexivity.
        * specialize (IH v any (Some d') (dh_pop h) e F2 HE HN' b eq_refl). cbn in IH.
          rewrite P3. destruct d as [y|]; [rewrite <- append_assoc, <- P2; exact IH|]. cbn in P2. subst d'. exact IH.
      + subst a. cbn [append]. rewrite P3.
        eapply (ru_more md _ h x (dh_pop h) (MdTextAfter v any (match d with Some y => Some (Some y) | None => None end)) (DBreak x) any (dh_pop h));
          [exact EE| |discriminate|exact (IH v any d (dh_pop h) e F2 HE HN' b eq_refl)].
        cbn [step mixed_deser de_next]. unfold mixed_next, md_text.
        destruct d; unfold text_next; rewrite P1; destruct x; try discriminate F1; try discriminate P1; reflexivity.
  Qed.

  Definition inj (st : option D) : option (mxdes T D) := match st with Some d => Some (MdInner d) | None => None end.

  Lemma mixed_reads st h evs v h1 : consumes des st h evs v h1 ->
    forall body e s, forallb flat body = true -> is_tag e = true -> dh_event h1 e <> None ->
    chars charref utf8_valid body = Some s ->
    reads_until md (inj st) h (evs ++ body ++ [e]) (Mixed v (if has_chars body then Some s else None)).
  Proof.
    induction 1 as [st h x h1 t any h2 E1 E2|st h x h1 d ev any h2 evs t h' E1 E2 HD HC IH];
      intros body e s HF HE HN HS.
    - cbn [app]. eapply (ru_more md _ h x h1 (MdTextAfter t any None) DNone any h2); [exact E1| |discriminate|].
      + destruct st as [d|]; cbn [inj step md mixed_deser de_next de_init] in *; unfold mixed_next; rewrite E2; reflexivity.
      + exact (mixed_text body t any None h2 e HF HE HN s HS).
    - cbn [app]. eapply (ru_more md _ h x h1 (MdInner d) ev any h2); [exact E1| | |].
      + destruct st as [d0|]; cbn [inj step md mixed_deser de_next de_init] in *; unfold mixed_next; rewrite E2; reflexivity.
      + exact HD.
      + apply (IH body e s HF HE HN); auto.
  Qed.
End Des.
