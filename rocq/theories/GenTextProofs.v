(** Proofs about generated structs without content and with simple content. *)
From Verif Require Import Utf8 GenModel GenSpec TextSpec TextProofs GenProofs.
Local Open Scope string_scope.
Local Open Scope list_scope.

(** ** Trimming is unique *)

Definition white (s : string) : Prop := forall c, In c (list_ascii_of_string s) -> ascii_ws c = true.

Lemma trim_start_white a : forall s, white a -> trim_start (a ++ s)%string = trim_start s.
Proof.
  induction a as [|c a IH]; intros s W; [reflexivity|]. cbn [append trim_start].
  rewrite (W c (or_introl eq_refl)). apply IH. intros d Hd. apply W. right. exact Hd.
Qed.

Lemma trim_end_white b : white b -> trim_end b = "".
Proof.
  induction b as [|c b IH]; intros W; [reflexivity|]. cbn [trim_end]. rewrite IH.
  - rewrite (W c (or_introl eq_refl)). reflexivity.
  - intros d Hd. apply W. right. exact Hd.
Qed.

Lemma trim_end_app t : forall b, white b -> trim_end (t ++ b)%string = trim_end t.
Proof.
  induction t as [|c t IH]; intros b W; cbn [append trim_end].
  - rewrite (trim_end_white _ W). reflexivity.
  - rewrite (IH _ W). reflexivity.
Qed.

Lemma trim_unique s t : trimmed_of s t -> trim_ascii s = t.
Proof.
  intros (a & b & -> & W & H1 & H2).
  assert (WA : white a) by (intros c Hc; apply W, ascii_in_app; left; exact Hc).
  assert (WB : white b) by (intros c Hc; apply W, ascii_in_app; right; exact Hc).
  unfold trim_ascii. rewrite (trim_start_white _ _ WA).
  destruct t as [|c t].
  - cbn [append]. replace b with (b ++ "")%string by (clear; induction b as [|d b IH]; [reflexivity|cbn; rewrite IH; reflexivity]).
    rewrite (trim_start_white _ _ WB). reflexivity.
  - rewrite (trim_start_id (String c t ++ b)%string).
    + rewrite (trim_end_app _ _ WB). apply trim_end_id, H2.
    + intros d r E. cbn in E. injection E as <- _. exact (H1 c t eq_refl).
Qed.

Section Plain.
  Variable blank : bytes -> option bool.
  Context {A : Type}.
  Variable from_start : dhelper -> bytes -> list attr -> outcome kind (A * dhelper).

  (** ** No content *)
  Section Empty.
    Variables allow_any mixed : bool.
    Notation des := (empty_deser from_start allow_any mixed).

    Lemma empty_spaces (a : A) h body h' : spaces blank h body h' -> forall n h2, dh_event h' (EEnd n) = Some h2 ->
      feeds blank des a h (body ++ [EEnd n]) (AData a) h2.
    Proof.
      induction 1 as [h|h e h1 evs h2 IG E1 SP IH]; intros n h3 E.
      - cbn [app]. eapply feeds_last; [exact E|reflexivity|exact I|discriminate].
      - cbn [app]. destruct (ignorable_kind _ _ IG) as [T N].
        destruct (mixed && is_chars e) eqn:M.
        + eapply feeds_step; [exact E1| | |exact (IH n h3 E)].
          * cbn [de_next empty_deser]. unfold empty_next. rewrite N, M. reflexivity.
          * exact I.
        + eapply feeds_step; [exact E1| | |exact (IH n h3 E)].
          * cbn [de_next empty_deser]. unfold empty_next. rewrite N, M. reflexivity.
          * exact IG.
    Qed.

    Lemma empty_element h evs v h' :
      element_of from_start (fun a h evs v h' => v = a /\ spaces blank h evs h') h evs v h' ->
      reads_element blank des h evs v h'.
    Proof.
      intros [(n & attrs & h0 & a & h1 & body & n' & h2 & -> & E0 & EA & [-> SP] & E1)|
              (n & attrs & h0 & a & h1 & -> & E0 & EA & [-> SP])].
      - eapply begins_more; [exact E0|cbn [de_init empty_deser empty_init]; rewrite EA; reflexivity|exact I|exact (empty_spaces _ _ _ _ SP _ _ E1)].
      - inversion SP; subst. eapply begins_one; [exact E0|cbn [de_init empty_deser empty_init]; rewrite EA; reflexivity|exact I|discriminate].
    Qed.
  End Empty.

  (** ** Simple content *)
  Section Simple.
    Variable charref : bytes -> option bytes.
    Context {T : Type}.
    Variable parse : dhelper -> bytes -> outcome kind (T * dhelper).
    Notation des := (simple_deser from_start charref utf8_valid parse).

    Lemma simple_feeds body : forall (a : A) h data s n t h', forallb flat body = true ->
      chars charref utf8_valid body = Some s -> parse (at_end h) (trim_ascii (data ++ s)%string) = Ok (t, h') ->
      feeds blank des (a, Some data) h (body ++ [EEnd n]) (AData (a, t)) h'.
    Proof.
      induction body as [|e body IH]; intros a h data s n t h' F C P.
      - cbn in C. injection C as <-. rewrite append_nil_r in P. cbn [app].
        unfold at_end in P.
        eapply feeds_last; [reflexivity|cbn [de_next simple_deser simple_next content_deser]; unfold content_next; cbn [piece]; unfold content_finish; rewrite P; reflexivity|exact I|discriminate].
      - cbn [forallb] in F. apply andb_true_iff in F as [F1 F2]. cbn [app].
        rewrite chars_cons in C. destruct (chars charref utf8_valid [e]) as [x|] eqn:EC; [|discriminate C].
        destruct (chars charref utf8_valid body) as [y|] eqn:EB; [|discriminate C]. injection C as <-.
        assert (AE : at_end (dh_pop h) = at_end h) by (unfold at_end; rewrite pop_idem; reflexivity).
        assert (ST : exists ev, de_next des (a, Some data) (dh_pop h) e = Ok (DOut (ADes (a, Some (data ++ x)%string)) ev false, dh_pop h) /\ consumed blank ev).
        { cbn [de_next simple_deser simple_next content_deser]. unfold content_next. rewrite (piece_chars charref e F1), EC.
          destruct e; try discriminate F1; cbn [simple_handle obind o_art o_ev o_any];
            try (cbn in EC; injection EC as <-; rewrite append_nil_r);
            eexists; split; try reflexivity. }
        destruct ST as (ev & ST & CO).
        eapply feeds_step; [exact (flat_event h e F1)|exact ST|exact CO|].
        apply (IH a (dh_pop h) (data ++ x)%string y); [exact F2|reflexivity|].
        rewrite AE, append_assoc. exact P.
    Qed.

    Lemma simple_element h evs v h' :
      text_of charref utf8_valid from_start parse h evs v h' -> reads_element blank des h evs v h'.
    Proof.
      destruct v as [a t]. cbn [fst snd]. unfold text_of. cbn [fst snd].
      intros [(n & attrs & h0 & h1 & body & n' & s & l & -> & E0 & EA & F & C & TR & P)|
              (n & attrs & h0 & h1 & -> & E0 & EA & P)].
      - rewrite <- (trim_unique _ _ TR) in P.
        eapply begins_more; [exact E0|cbn [de_init simple_deser simple_init]; rewrite EA; reflexivity|exact I|exact (simple_feeds body a h1 "" s n' t h' F C P)].
      - eapply begins_one; [exact E0|cbn [de_init simple_deser simple_init]; rewrite EA; cbn [obind simple_next de_init content_deser content_init]; rewrite P; reflexivity|exact I|discriminate].
    Qed.

    (** A plain simple type. *)
    Notation plain := (content_deser charref utf8_valid parse).
    Lemma plain_feeds body : forall h data s n t h', forallb flat body = true ->
      chars charref utf8_valid body = Some s -> parse (at_end h) (trim_ascii (data ++ s)%string) = Ok (t, h') ->
      feeds blank plain data h (body ++ [EEnd n]) (AData t) h'.
    Proof.
      induction body as [|e body IH]; intros h data s n t h' F C P.
      - cbn in C. injection C as <-. rewrite append_nil_r in P. cbn [app].
        unfold at_end in P.
        eapply feeds_last; [reflexivity|cbn [de_next content_deser]; unfold content_next; cbn [piece]; unfold content_finish; rewrite P; reflexivity|exact I|discriminate].
      - cbn [forallb] in F. apply andb_true_iff in F as [F1 F2]. cbn [app].
        rewrite chars_cons in C. destruct (chars charref utf8_valid [e]) as [x|] eqn:EC; [|discriminate C].
        destruct (chars charref utf8_valid body) as [y|] eqn:EB; [|discriminate C]. injection C as <-.
        assert (AE : at_end (dh_pop h) = at_end h) by (unfold at_end; rewrite pop_idem; reflexivity).
        assert (ST : exists ev, de_next plain data (dh_pop h) e = Ok (DOut (ADes (data ++ x)%string) ev false, dh_pop h) /\ consumed blank ev).
        { cbn [de_next content_deser]. unfold content_next. rewrite (piece_chars charref e F1), EC.
          destruct e; try discriminate F1; 
            try (cbn in EC; injection EC as <-; rewrite append_nil_r);
            eexists; split; try reflexivity. }
        destruct ST as (ev & ST & CO).
        eapply feeds_step; [exact (flat_event h e F1)|exact ST|exact CO|].
        apply (IH (dh_pop h) (data ++ x)%string y); [exact F2|reflexivity|].
        rewrite AE, append_assoc. exact P.
    Qed.

    Lemma plain_element h evs t h' :
      text_of charref utf8_valid (fun h _ _ => Ok (tt, h)) parse h evs (tt, t) h' -> reads_element blank plain h evs t h'.
    Proof.
      unfold text_of. cbn [fst snd].
      intros [(n & attrs & h0 & h1 & body & n' & s & l & -> & E0 & EA & F & C & TR & P)|
              (n & attrs & h0 & h1 & -> & E0 & EA & P)]; injection EA as ->.
      - rewrite <- (trim_unique _ _ TR) in P.
        eapply begins_more; [exact E0|reflexivity|exact I|exact (plain_feeds body h1 "" s n' t h' F C P)].
      - eapply begins_one; [exact E0|cbn [de_init content_deser content_init]; rewrite P; reflexivity|exact I|discriminate].
    Qed.
  End Simple.
End Plain.
