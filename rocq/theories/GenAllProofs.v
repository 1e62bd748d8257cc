(** Proofs about the generated deserializers: elements in any order. *)
From Verif Require Import GenModel GenSpec GenProofs GenChoiceProofs.
From Coq Require Import Lia.
Local Open Scope list_scope.

Section All.
  Variable blank : bytes -> option bool.
  Context {V D A : Type}.
  Variable from_start : dhelper -> bytes -> list attr -> outcome kind (A * dhelper).
  Variables (elem : bool) (no_attrs : A) (allow_any : bool).
  Variables (ms : list (member V D)) (ss : list (slot V)).
  Hypothesis OK : Forall2 (member_ok blank) ms ss.

  Notation ldes := (ldes (V:=V) (D:=D) (A:=A)).
  Notation lstate := (lstate (D:=D)).
  Notation loop := (all_loop (A:=A) elem allow_any ms).
  Notation des := (all_deser from_start elem no_attrs allow_any ms).
  Notation place := (GenSpec.place (V:=V)).

  Definition lgo (fuel : nat) (a : A) (r : outcome kind (hout * lhstate (V:=V) (D:=D))) : dresult (A * list (list V)) ldes :=
    let* (ho, hs') := r in
    match ho with
    | HContinue e' _ => loop fuel a hs' e'
    | HBreak de x => all_end a hs' de x
    end.

  Lemma all_at fuel (a : A) fields i m d fb h e : nth_error ms i = Some m ->
    loop (S fuel) a (fields, LAt i d, fb, h) e =
    let* (out, h1) := de_next (m_deser m) d h e in lgo fuel a (all_handle ms i m fields out fb h1).
  Proof. intros E. cbn [all_loop]. rewrite E. reflexivity. Qed.

  Lemma all_over fuel (a : A) fields st fb h e : st = LInit \/ st = LNext -> is_end e = true ->
    loop (S fuel) a (fields, st, fb, h) e =
    let* (vals, h1) := finish_fields ms fields h in
    Ok (DOut (AData (a, vals)) (if elem then DNone else DContinue e) false, h1).
  Proof. intros [-> | ->] E; cbn [all_loop]; rewrite E; reflexivity. Qed.

  Lemma all_start fuel (a : A) fields st fb h e : st = LInit \/ st = LNext -> is_end e = false ->
    loop (S fuel) a (fields, st, fb, h) e = lgo fuel a (all_find allow_any ms e fields (get_or_insert fb st) h).
  Proof. intros [-> | ->] E; cbn [all_loop]; rewrite E; reflexivity. Qed.

  Lemma all_next_loop st h e : exists fuel, de_next des st h e = loop (S (S fuel)) (ld_attrs st) (ld_fields st, ld_state st, None, h) e.
  Proof. exists 2. reflexivity. Qed.

  Definition lgotten (fields : list (list V)) (fb : option lstate) (G : list (list V)) : Prop :=
    forall h, match fb with Some st => all_finish_state ms fields st h | None => Ok (fields, h) end = Ok (G, h).

  Definition l_after (a : A) (j : nat) (G : list (list V)) (art : artifact V D) : artifact (A * list (list V)) ldes :=
    match art with
    | ANone => ANone
    | AData v => ADes (LDes a (add_value j v G) LNext)
    | ADes d => ADes (LDes a G (LAt j d))
    end.

  Lemma lhandled (a : A) j m s fields fb G art ev any h :
    nth_error ms j = Some m -> nth_error ss j = Some s -> length G = length ms -> room s (length (nth j G [])) ->
    lgotten fields fb G -> consumed blank ev -> art <> ANone ->
    exists hs, all_handle ms j m fields (DOut art ev any) fb h = Ok (HBreak ev any, hs) /\
      all_end a hs ev any = Ok (DOut (l_after a j G art) ev any, h).
  Proof.
    intros EM ES L R GT C N. unfold all_handle. cbn [o_art o_ev o_any]. rewrite (consumed_from _ _ any C).
    destruct art as [|v|d]; [elim N; reflexivity| |]; rewrite (GT h); cbn [obind].
    - rewrite (stored blank ms ss OK j m s G v EM ES L R). cbn [obind]. eexists; split; reflexivity.
    - eexists; split; reflexivity.
  Qed.

  Lemma l_run fuel (a : A) j m s G d h e art ev any h' :
    nth_error ms j = Some m -> nth_error ss j = Some s -> length G = length ms -> room s (length (nth j G [])) ->
    consumed blank ev -> art <> ANone -> de_next (m_deser m) d h e = Ok (DOut art ev any, h') ->
    loop (S fuel) a (G, LAt j d, None, h) e = Ok (DOut (l_after a j G art) ev any, h').
  Proof.
    intros EM ES L R C N E. rewrite (all_at _ _ _ _ _ _ _ _ _ EM), E. cbn [obind].
    destruct (lhandled a j m s G None G art ev any h' EM ES L R (fun _ => eq_refl) C N) as (hs & -> & EE). exact EE.
  Qed.

  Lemma feed_all (a : A) j m s G d h evs art h' :
    nth_error ms j = Some m -> nth_error ss j = Some s -> length G = length ms -> room s (length (nth j G [])) ->
    feeds blank (m_deser m) d h evs art h' -> feeds blank des (LDes a G (LAt j d)) h evs (l_after a j G art) h'.
  Proof.
    intros EM ES L R F. induction F as [d h e h1 art ev any h2 E1 E2 C N|d h e h1 d' ev any h2 evs art h3 E1 E2 C F IH].
    - eapply feeds_last; [exact E1| |exact C|].
      + destruct (all_next_loop (LDes a G (LAt j d)) h1 e) as (fuel & ->). cbn [ld_attrs ld_fields ld_state]. eapply l_run; eassumption.
      + destruct art; [elim N; reflexivity| |]; discriminate.
    - eapply feeds_step; [exact E1| |exact C|exact IH].
      destruct (all_next_loop (LDes a G (LAt j d)) h1 e) as (fuel & ->). cbn [ld_attrs ld_fields ld_state].
      apply (l_run _ a j m s G d h1 e (ADes d') ev any h2 EM ES L R C); [discriminate|exact E2].
  Qed.

  (** ** Finding the member *)
  Lemma no_element (l : list (member V D)) (ls : list (slot V)) h e : Forall2 (member_ok blank) l ls ->
    (forall k m t, nth_error l k = Some m -> nth_error ls k = Some t -> m_kind m = KindElement -> ~ fits h e (l_first (s_lang t))) ->
    forall b, find_tag b l e h = None.
  Proof.
    intros F. induction F as [|m0 s0 l ls MO0 F IH]; intros H b; [reflexivity|]. cbn [find_tag].
    replace (mkind_eqb (m_kind m0) KindElement && check_tag h e (m_ns m0) (m_name m0)) with false.
    - apply IH. intros k m1 t. exact (H (S k) m1 t).
    - symmetry. destruct (m_kind m0) eqn:K0; try reflexivity. cbn. destruct (check_tag h e (m_ns m0) (m_name m0)) eqn:C0; [|reflexivity].
      elim (H 0 m0 s0 eq_refl eq_refl K0). pose proof MO0 as (FI & _). rewrite K0 in FI. rewrite FI.
      exists (m_ns m0, m_name m0). split; [reflexivity|exact C0].
  Qed.

  Lemma l_refuses (m : member V D) (s : slot V) h e k l any fields fb : member_ok blank m s -> is_tag e = true ->
    ~ fits h e (l_first (s_lang s)) ->
    exists any', all_groups ms k (m :: l) e any fields fb h = all_groups ms (S k) l e any' fields fb h.
  Proof.
    intros MO T NF. cbn [all_groups]. destruct (kind_cases blank _ _ MO) as [K|K]; rewrite K; cbn [sel_group]; [eexists; reflexivity|].
    pose proof MO as (_ & IM & _). destruct (IM true) as [_ RF]. destruct (RF h e T NF) as (x & RE).
    unfold member_start in RE. rewrite K in RE. exists (any || x). rewrite RE. cbn [obind].
    unfold all_handle. cbn [o_art o_ev o_any]. rewrite K, (from_event_tag _ _ T). reflexivity.
  Qed.

  Lemma find_none e fields st h : is_tag e = false \/ (is_tag e = true /\ ~ fits h e (first_of ss)) ->
    exists any, all_find allow_any ms e fields (Some st) h = Ok (HBreak (DContinue e) any, (fields, st, None, h)).
  Proof.
    intros H. unfold all_find. rewrite (no_texts blank ms ss OK). destruct H as [-> |[T NF]]; [eexists; reflexivity|]. rewrite T.
    assert (NE : forall t, In t ss -> ~ fits h e (l_first (s_lang t))).
    { intros t Ht (l & Hl & Hc). apply NF. exists l. split; [|exact Hc]. exists t. auto. }
    rewrite (find_tag_none blank ms ss h e OK NE).
    assert (GR : forall (l : list (member V D)) (ls : list (slot V)), Forall2 (member_ok blank) l ls -> (forall t, In t ls -> ~ fits h e (l_first (s_lang t))) ->
      forall k any, exists any', all_groups ms k l e any fields (Some st) h = Ok (inr (e, any', (fields, Some st, h)))).
    { intros l ls F. induction F as [|m s l ls MO F IH]; intros NF' k any; [eexists; reflexivity|].
      destruct (l_refuses m s h e k l any fields (Some st) MO T (NF' s (or_introl eq_refl))) as (any' & ->).
      apply IH. intros t Ht. apply NF'. right; exact Ht. }
    destruct (GR ms ss OK NE 0 false) as (any & ->). cbn [obind]. eexists; reflexivity.
  Qed.

  Lemma find_item (a : A) j m s fields st G h e art ev x h2 :
    nth_error ms j = Some m -> nth_error ss j = Some s -> length G = length ms -> room s (length (nth j G [])) ->
    lgotten fields (Some st) G -> is_tag e = true -> fits h e (l_first (s_lang s)) ->
    (forall k t, nth_error ss k = Some t -> k <> j -> ~ fits h e (l_first (s_lang t))) ->
    consumed blank ev -> art <> ANone -> (forall any, member_start m any h e = Ok (DOut art ev x, h2)) ->
    exists hs, all_find allow_any ms e fields (Some st) h = Ok (HBreak ev x, hs) /\
      all_end a hs ev x = Ok (DOut (l_after a j G art) ev x, h2).
  Proof.
    intros EM ES L R GT T FT NF C N MS.
    destruct (lhandled a j m s fields (Some st) G art ev x h2 EM ES L R GT C N) as (hs & EH & EE).
    exists hs. split; [|exact EE]. unfold all_find. rewrite T.
    destruct (Forall2_nth _ _ _ _ _ OK EM) as (s' & ES' & MO). rewrite ES in ES'. injection ES' as <-.
    destruct (kind_cases blank m s MO) as [K|K].
    - assert (CT : check_tag h e (m_ns m) (m_name m) = true).
      { pose proof MO as (FI & _). rewrite K in FI. rewrite FI in FT. destruct FT as (l & -> & CC). exact CC. }
      rewrite (find_tag_at blank ms ss h e j m s OK EM ES K CT NF 0). cbn [Nat.add].
      specialize (MS true). unfold member_start in MS. rewrite K in MS. unfold init_start_tag in MS. rewrite CT in MS.
      rewrite MS. cbn [obind]. exact EH.
    - rewrite (no_element ms ss h e OK).
      2:{ intros k m0 t E1 E2 K0. apply (NF k t E2). intros ->. congruence. }
      assert (TG : forall (l : list (member V D)) (ls : list (slot V)), Forall2 (member_ok blank) l ls -> forall b i any, nth_error l i = Some m -> nth_error ls i = Some s -> b + i = j ->
        (forall k t, nth_error ls k = Some t -> k <> i -> ~ fits h e (l_first (s_lang t))) ->
        all_groups ms b l e any fields (Some st) h = Ok (inl (HBreak ev x, hs))).
      { intros l ls F. induction F as [|m0 s0 l ls MO0 F IH]; intros b [|i] any E1 E2 EB H; try discriminate E1; cbn in E1, E2.
        - injection E1 as ->. cbn [all_groups]. rewrite K. cbn [sel_group]. specialize (MS true). unfold member_start in MS. rewrite K in MS.
          rewrite MS. cbn [obind]. rewrite Nat.add_0_r in EB. subst b. rewrite EH. reflexivity.
        - destruct (l_refuses m0 s0 h e b l any fields (Some st) MO0 T) as (any' & ->); [apply (H 0 s0 eq_refl); lia|].
          apply (IH (S b) i); try assumption; [lia|]. intros k t E NK. apply (H (S k) t E). lia. }
      rewrite (TG ms ss OK 0 j false EM ES eq_refl NF). reflexivity.
  Qed.

  (** ** The states between the occurrences *)
  Definition fit (G : list (list V)) : Prop :=
    length G = length ms /\
    forall k s, nth_error ss k = Some s -> match s_max s with Bounded n => length (nth k G []) <= n | Unbounded => True end.

  Lemma fit_add j s G v : nth_error ss j = Some s -> room s (length (nth j G [])) -> fit G -> fit (add_value j v G).
  Proof.
    intros ES R [L B]. split; [rewrite add_length; exact L|]. intros k t Et. destruct (Nat.eq_dec j k) as [<-|NE].
    - rewrite ES in Et. injection Et as <-. rewrite add_same; [|rewrite L, (Forall2_len _ _ _ OK); exact (nth_len _ _ _ ES)].
      unfold room in R. destruct (s_max s); [exact I|]. rewrite app_length. cbn. lia.
    - rewrite add_other by exact NE. exact (B k t Et).
  Qed.

  Inductive at_all (a : A) : list (list V) -> labels -> ldes -> Prop :=
  | aa_rest G more st : fit G -> st = LInit \/ st = LNext -> at_all a G more (LDes a G st)
  | aa_run j m s G v more d : nth_error ms j = Some m -> nth_error ss j = Some s -> fit G ->
      room s (length (nth j G [])) -> done_with blank (m_deser m) v more d ->
      at_all a (add_value j v G) more (LDes a G (LAt j d)).

  Lemma a_attrs (a : A) G more st : at_all a G more st -> ld_attrs st = a.
  Proof. destruct 1; reflexivity. Qed.

  Lemma a_fit (a : A) G more st : at_all a G more st -> fit G.
  Proof. destruct 1; [assumption|eapply fit_add; eassumption]. Qed.

  Lemma after_all (a : A) j m s G art v more : nth_error ms j = Some m -> nth_error ss j = Some s -> fit G ->
    room s (length (nth j G [])) -> complete blank (m_deser m) v more art ->
    exists st, l_after a j G art = ADes st /\ at_all a (add_value j v G) more st /\ ld_state st <> LInit.
  Proof.
    intros EM ES F R [->|(d & -> & DW)]; cbn [l_after]; eexists; (split; [reflexivity|]); (split; [|discriminate]).
    - apply aa_rest; [eapply fit_add; eassumption|auto].
    - eapply aa_run; eassumption.
  Qed.

  (** A tag that does not continue the last occurrence. *)
  Lemma a_refused (a : A) G more st h e : at_all a G more st -> is_tag e = true -> ~ fits h e more ->
    exists fields fb, lgotten fields (Some fb) G /\ (fb = LInit -> st = LDes a G LInit) /\ (ld_state st = LInit -> fb = LInit) /\
      forall fuel, exists fuel', loop (S (S fuel)) a (ld_fields st, ld_state st, None, h) e =
        lgo fuel' a (all_find allow_any ms e fields (Some fb) h).
  Proof.
    intros AT T NF. destruct AT as [G more st F ST|j m s G v more d EM ES F R DW].
    - exists G, st. split; [intros h0; destruct ST as [-> | ->]; reflexivity|]. split; [intros ->; reflexivity|]. split; [auto|].
      intros fuel. exists (S fuel). cbn [ld_fields ld_state]. rewrite all_start; [reflexivity|exact ST|exact (tag_not_end _ T)].
    - destruct DW as (inv & ID & DW). destruct (DW d ID) as (_ & _ & RF & _).
      destruct (RF h e T NF) as (art & x & NX & [->|(d' & -> & FI)]).
      + exists (add_value j v G), LNext. split; [intros h0; reflexivity|]. split; [discriminate|]. split; [discriminate|].
        intros fuel. exists fuel. cbn [ld_fields ld_state]. rewrite (all_at _ _ _ _ _ _ _ _ _ EM), NX. cbn [obind].
        unfold all_handle. cbn [o_art o_ev o_any obind]. rewrite (stored blank ms ss OK j m s G v EM ES (proj1 F) R).
        cbn [obind]. rewrite (from_event_tag _ _ T). cbn [lgo obind]. apply all_start; [auto|exact (tag_not_end _ T)].
      + exists G, (LAt j d'). split.
        { intros h0. cbn [all_finish_state]. rewrite EM, FI. cbn [obind]. rewrite (stored blank ms ss OK j m s G v EM ES (proj1 F) R). reflexivity. }
        split; [discriminate|]. split; [discriminate|].
        intros fuel. exists fuel. cbn [ld_fields ld_state]. rewrite (all_at _ _ _ _ _ _ _ _ _ EM), NX. cbn [obind].
        unfold all_handle. cbn [o_art o_ev o_any obind]. rewrite (from_event_tag _ _ T). cbn [lgo obind].
        rewrite all_start; [reflexivity|auto|exact (tag_not_end _ T)].
  Qed.

  Lemma item_all (a : A) G more st j s h e evs v more' h1 h0 : at_all a G more st -> nth_error ss j = Some s ->
    l_occ (s_lang s) h (e :: evs) v more' h1 -> dh_event h e = Some h0 -> ~ fits h0 e more -> room s (length (nth j G [])) ->
    (forall k t, nth_error ss k = Some t -> k <> j -> ~ fits h0 e (l_first (s_lang t))) ->
    exists st', feeds blank des st h (e :: evs) (ADes st') h1 /\ at_all a (add_value j v G) more' st' /\
      (st = all_new ms a -> a = no_attrs -> begins blank des (all_init_group elem no_attrs allow_any ms) h (e :: evs) (ADes st') h1) /\
      is_tag e = true /\ fits h0 e (l_first (s_lang s)).
  Proof.
    intros AT ES OC E0 NM R NF. destruct (Forall2_nth_r _ _ _ _ _ OK ES) as (m & EM & MO). pose proof MO as (_ & IM & _).
    destruct (proj1 (IM true) _ _ _ _ _ OC) as ((e' & r' & EE & T) & FT & art & BG & CP). injection EE as <- <-.
    specialize (FT e evs h0 eq_refl E0). pose proof (a_fit _ _ _ _ AT) as F.
    assert (TAG : forall art0 ev x h2, member_start m true h0 e = Ok (DOut art0 ev x, h2) ->
      consumed blank ev -> art0 <> ANone -> de_next des st h0 e = Ok (DOut (l_after a j G art0) ev x, h2)).
    { intros art0 ev x h2 MS C N. destruct (all_next_loop st h0 e) as (fuel & ->). rewrite (a_attrs _ _ _ _ AT).
      destruct (a_refused a G more st h0 e AT T NM) as (fields & fb & GT & _ & _ & EQ). destruct (EQ fuel) as (fuel' & ->).
      destruct (find_item a j m s fields fb G h0 e art0 ev x h2 EM ES (proj1 F) R GT T FT NF C N (start_same blank m s true MO _ _ _ _ _ _ N MS)) as (hs & -> & EE).
      exact EE. }
    assert (GRP : st = all_new ms a -> a = no_attrs -> forall art0 ev x h2, de_next des st h0 e = Ok (DOut (l_after a j G art0) ev x, h2) -> art0 <> ANone ->
      all_init_group elem no_attrs allow_any ms h0 e = Ok (DOut (l_after a j G art0) ev x, h2)).
    { intros -> -> art0 ev x h2 E NA. unfold all_init_group. cbn [de_next all_deser] in E. rewrite E. cbn [obind o_art o_ev o_any].
      destruct art0 as [|w|d]; [elim NA; reflexivity| |]; reflexivity. }
    destruct (after_all a j m s G art v more' EM ES F R CP) as (st' & EA & AT' & _). exists st'. rewrite <- EA.
    split; [|split; [exact AT'|split; [|split; [exact T|exact FT]]]];
    (inversion BG as [h3 e3 h4 art0 ev x h5 E1 MS C N E2 E3|h3 e3 h4 d0 ev x h5 evs0 art0 h6 E1 MS C FD E2 E3]; subst;
     rewrite E0 in E1; injection E1 as <-).
    - eapply feeds_last; [exact E0|exact (TAG _ _ _ _ MS C N)|exact C|]. rewrite EA. discriminate.
    - assert (N : ADes (T:=V) d0 <> ANone) by discriminate.
      eapply feeds_step; [exact E0|exact (TAG _ _ _ _ MS C N)|exact C|]. eapply feed_all; try eassumption. exact (proj1 F).
    - intros X Y. eapply begins_one; [exact E0|exact (GRP X Y _ _ _ _ (TAG _ _ _ _ MS C N) N)|exact C|]. rewrite EA. discriminate.
    - assert (N : ADes (T:=V) d0 <> ANone) by discriminate.
      intros X Y. eapply begins_more; [exact E0|exact (GRP X Y _ _ _ _ (TAG _ _ _ _ MS C N) N)|exact C|].
      eapply feed_all; try eassumption. exact (proj1 F).
  Qed.

  Lemma space_all (a : A) G more st h e : at_all a G more st -> ignorable blank e ->
    exists st' ev any, de_next des st h e = Ok (DOut (ADes st') ev any, h) /\ consumed blank ev /\ at_all a G more st' /\
      (ld_state st = LInit -> st' = st).
  Proof.
    intros AT IG. destruct (all_next_loop st h e) as (fuel & ->). destruct (ignorable_kind _ _ IG) as [T E].
    destruct AT as [G more st F ST|j m s G v more d EM ES F R DW]; cbn [ld_attrs ld_fields ld_state].
    - exists (LDes a G st). rewrite (all_start _ _ _ _ _ _ _ ST E).
      destruct (find_none e G st h (or_introl T)) as (any & EF).
      replace (get_or_insert None st) with (Some st) by reflexivity. rewrite EF. exists (DContinue e), any.
      split; [reflexivity|]. split; [exact IG|]. split; [apply aa_rest; assumption|auto].
    - destruct DW as (inv & ID & DW). destruct (DW d ID) as (_ & _ & _ & SP).
      destruct (SP h e IG) as (d' & ev & any & NX & C & ID'). exists (LDes a G (LAt j d')), ev, any.
      split; [|split; [exact C|split; [eapply aa_run; try eassumption; exists inv; auto|discriminate]]].
      apply (l_run _ a j m s G d h e (ADes d') ev any h EM ES (proj1 F) R C); [discriminate|exact NX].
  Qed.

  (** Between the occurrences the machine is always still running. *)
  Lemma run_all (a : A) p h evs p' h' : scattered blank ss p h evs p' h' ->
    forall i G more, p = (i, G, more) -> forall st, at_all a G more st ->
    exists i' G' more' st', p' = (i', G', more') /\ fed blank des st h evs st' h' /\ at_all a G' more' st'.
  Proof.
    induction 1 as [p h|p h e h1 evs p' h2 IG E1 R IH|i got more h evs j s v more' h1 rest p' h2 ES OC RM NF R IH];
      intros i0 G0 more0 E st AT.
    - exists i0, G0, more0, st. split; [exact E|]. split; [apply fed_nil|exact AT].
    - destruct (space_all a G0 more0 st h1 e AT IG) as (st' & ev & any & NX & C & AT' & _).
      destruct (IH i0 G0 more0 E st' AT') as (i' & G' & m' & st'' & EP & FD & AT''). exists i', G', m', st''.
      split; [exact EP|]. split; [|exact AT'']. eapply fed_cons; eassumption.
    - injection E as <- <- <-.
      destruct (Forall2_nth_r _ _ _ _ _ OK ES) as (m & EM & MO). pose proof MO as (_ & IM & _).
      destruct (proj1 (IM true) _ _ _ _ _ OC) as ((e & r & -> & T) & _ & art & BG & _).
      assert (E0 : exists h0, dh_event h e = Some h0) by (inversion BG; eauto). destruct E0 as (h0 & E0).
      destruct (NF e r h0 eq_refl E0) as [NM NO].
      destruct (item_all a got more st j s h e r v more' h1 h0 AT ES OC E0 NM RM NO) as (st' & FD & AT' & _).
      destruct (IH j _ _ eq_refl st' AT') as (i' & G' & m' & st'' & EP & FD' & AT''). exists i', G', m', st''.
      split; [exact EP|]. split; [|exact AT'']. eapply fed_app; [apply feeds_fed; exact FD|exact FD'].
  Qed.

  Lemma fields_ok G vals h : fit G -> (forall k s, nth_error ss k = Some s -> settled s (nth k G []) (nth k vals [])) ->
    length vals = length ss -> finish_fields ms G h = Ok (vals, h).
  Proof.
    intros [L B] ST LV. apply (finish_fields_ok blank ms ss); [exact OK|rewrite L; exact (Forall2_len _ _ _ OK)|exact LV|].
    intros k s E. split; [exact (ST k s E)|exact (B k s E)].
  Qed.

  Lemma finish_all (a : A) i G more st vals h : at_all a G more st -> settled_at ss (i, G, more) vals ->
    all_finish ms st h = Ok ((a, vals), h).
  Proof.
    intros AT (_ & LV & ST). pose proof (fields_ok G vals h (a_fit _ _ _ _ AT) ST LV) as EF.
    unfold all_finish. destruct AT as [G more st F SS|j m s G v more d EM ES F R DW]; cbn [ld_attrs ld_fields ld_state].
    - replace (all_finish_state ms G st h) with (Ok (E:=kind) (G, h)) by (destruct SS as [-> | ->]; reflexivity).
      cbn [obind]. rewrite EF. reflexivity.
    - destruct DW as (inv & ID & DW). destruct (DW d ID) as (FI & _). cbn [all_finish_state]. rewrite EM, FI. cbn [obind].
      rewrite (stored blank ms ss OK j m s G v EM ES (proj1 F) R). cbn [obind]. rewrite EF. reflexivity.
  Qed.

  Lemma end_all (a : A) i G more st vals h n : at_all a G more st -> settled_at ss (i, G, more) vals ->
    exists any, de_next des st h (EEnd n) = Ok (DOut (AData (a, vals)) (if elem then DNone else DContinue (EEnd n)) any, h).
  Proof.
    intros AT (_ & LV & ST). pose proof (fields_ok G vals h (a_fit _ _ _ _ AT) ST LV) as EF.
    destruct (all_next_loop st h (EEnd n)) as (fuel & ->).
    destruct AT as [G more st F SS|j m s G v more d EM ES F R DW]; cbn [ld_attrs ld_fields ld_state].
    - rewrite all_over by auto. rewrite EF. cbn [obind]. eexists; reflexivity.
    - destruct DW as (inv & ID & DW). destruct (DW d ID) as (_ & EN & _). destruct (EN h n) as (x & NX).
      rewrite (all_at _ _ _ _ _ _ _ _ _ EM), NX. cbn [obind]. unfold all_handle. cbn [o_art o_ev o_any obind].
      rewrite (stored blank ms ss OK j m s G v EM ES (proj1 F) R). cbn [obind from_event is_tag is_end orb lgo].
      rewrite all_over by auto. rewrite EF. cbn [obind]. eexists; reflexivity.
  Qed.

  Lemma refuse_all (a : A) i G more st vals h e : at_all a G more st -> settled_at ss (i, G, more) vals -> is_tag e = true ->
    ~ fits h e (all_next_labels ss (i, G, more)) ->
    exists st' any, de_next des st h e = Ok (DOut (ADes st') (DContinue e) any, h) /\
      (forall h, all_finish ms st' h = Ok ((a, vals), h)) /\ (ld_state st = LInit -> ld_state st' = LInit).
  Proof.
    intros AT SA T NF. pose proof SA as (_ & LV & ST). pose proof (a_fit _ _ _ _ AT) as F. destruct (all_next_loop st h e) as (fuel & ->).
    assert (NM : ~ fits h e more) by (intros (l & Hl & Hc); apply NF; exists l; split; [left; exact Hl|exact Hc]).
    assert (NO : ~ fits h e (first_of ss)) by (intros (l & Hl & Hc); apply NF; exists l; split; [right; exact Hl|exact Hc]).
    rewrite (a_attrs _ _ _ _ AT).
    destruct (a_refused a G more st h e AT T NM) as (fields & fb & GT & _ & X & EQ). destruct (EQ fuel) as (fuel' & ->).
    destruct (find_none e fields fb h (or_intror (conj T NO))) as (any & ->). exists (LDes a fields fb), any.
    split; [reflexivity|]. split; [|exact X].
    intros h0. unfold all_finish. cbn [ld_attrs ld_fields ld_state]. rewrite (GT h0). cbn [obind].
    rewrite (fields_ok G vals h0 F ST LV). reflexivity.
  Qed.

  Lemma done_all (a : A) i G more st vals : elem = false -> at_all a G more st -> settled_at ss (i, G, more) vals ->
    done_with blank des (a, vals) (all_next_labels ss (i, G, more)) st.
  Proof.
    intros EL AT SA. exists (at_all a G more). split; [exact AT|]. intros d AT0. split; [|split; [|split]].
    - intros h. exact (finish_all a i _ _ _ _ h AT0 SA).
    - intros h n. destruct (end_all a i _ _ _ _ h n AT0 SA) as (any & E). exists any. rewrite E, EL. reflexivity.
    - intros h e T NS. destruct (refuse_all a i G more d vals h e AT0 SA T NS) as (st' & any & E & FI & _).
      exists (ADes st'), any. split; [exact E|]. right. exists st'. auto.
    - intros h e IG. destruct (space_all _ _ _ _ h e AT0 IG) as (st' & ev & any & E & C & AT' & _). exists st', ev, any. auto.
  Qed.

  Lemma new_all (a : A) : at_all a (map (fun _ => []) ss) no_labels (all_new ms a).
  Proof.
    replace (map (fun _ => []) ss) with (no_fields ms).
    - apply aa_rest; [|auto]. split; [unfold no_fields; apply map_length|]. intros k s E. unfold no_fields. rewrite nth_empty.
      destruct (s_max s); [exact I|cbn; lia].
    - unfold no_fields. clear - OK. induction OK as [|m s l ls MO F IH]; [reflexivity|]. cbn. f_equal. exact (IH F).
  Qed.

  Theorem all_group : elem = false ->
    implements blank des (all_init_group elem no_attrs allow_any ms) (all_lang blank no_attrs ss).
  Proof.
    intros EL. split.
    - intros h evs [va vals] more h' (BT & p & SC & -> & EA & SA). cbn [fst snd] in *. subst va.
      destruct BT as (e & rest0 & -> & T).
      inversion SC as [p0 h0 X1 X2 X3|p0 h0 e0 h1 evs0 p' h2 IG E1 SC1 X1 X2 X3|i got more h0 evs j s v more' h1 rest p' h2 ES OC RM NF SC1 X1 X2 X3];
        clear SC.
      + exfalso. destruct (ignorable_kind _ _ IG) as [TT _]. congruence.
      + assert (HE : exists evs1, evs = e :: evs1 /\ rest0 = evs1 ++ rest).
        { destruct (Forall2_nth_r _ _ _ _ _ OK ES) as (m & EM & MO). pose proof MO as (_ & IM & _).
          destruct (proj1 (IM true) _ _ _ _ _ OC) as ((e' & r' & -> & _) & _). cbn in X3. injection X3 as -> <-. exists r'. auto. }
        destruct HE as (evs1 & -> & ->). clear X3.
        destruct (Forall2_nth_r _ _ _ _ _ OK ES) as (m & EM & MO). pose proof MO as (_ & IM & _).
        destruct (proj1 (IM true) _ _ _ _ _ OC) as (_ & _ & art & BG0 & _).
        assert (E0 : exists h9, dh_event h e = Some h9) by (inversion BG0; eauto). destruct E0 as (h9 & E0).
        destruct (NF e evs1 h9 eq_refl E0) as [NM NO].
        replace got with (map (fun _ => @nil V) ss) in * by congruence. replace more with no_labels in * by congruence. clear X1 X2.
        destruct (item_all no_attrs _ _ _ j s h e evs1 v more' h1 h9 (new_all no_attrs) ES OC E0 NM RM NO) as (st' & FD & AT' & BG & _ & FT).
        specialize (BG eq_refl eq_refl).
        destruct (run_all no_attrs _ _ _ _ _ SC1 j _ _ eq_refl st' AT') as (i' & G' & m' & st'' & -> & FD' & AT'').
        split; [exists e, (evs1 ++ rest); auto|]. split.
        { intros e8 r8 h8 E8 D8. cbn in E8. injection E8 as <- <-. rewrite E0 in D8. injection D8 as <-.
          destruct FT as (l & Hl & Hc). exists l. split; [|exact Hc]. exists s. split; [eapply nth_error_In; exact ES|exact Hl]. }
        exists (ADes st''). split.
        * eapply (begins_gone blank _ _ _ (e :: evs1)); [exact BG|].
          destruct rest as [|x rest]; [apply fed_none in FD' as [-> ->]; apply gone_nil|].
          right. exists st'. split; [reflexivity|]. apply fed_feeds; [exact FD'|discriminate].
        * right. exists st''. split; [reflexivity|]. exact (done_all no_attrs i' G' m' st'' vals EL AT'' SA).
    - intros h e T NF. 
      destruct (a_refused no_attrs _ _ _ h e (new_all no_attrs) T) as (fields & fb & GT & _ & X & EQ).
      { intros (l & [] & _). }
      destruct (all_next_loop (all_new ms no_attrs) h e) as (fuel & EN). destruct (EQ fuel) as (fuel' & EQ').
      unfold all_init_group. cbn [de_next all_deser] in EN. rewrite EN.
      replace (ld_attrs (all_new ms no_attrs)) with no_attrs by reflexivity. rewrite EQ'.
      destruct (find_none e fields fb h (or_intror (conj T NF))) as (any & ->). rewrite (X eq_refl). eexists; reflexivity.
  Qed.

  Theorem all_ignores : ignores blank (all_init_group elem no_attrs allow_any ms).
  Proof.
    intros h e IG. destruct (space_all no_attrs _ _ _ h e (new_all no_attrs) IG) as (st' & ev & any & E & C & _ & X).
    rewrite (X eq_refl) in E. exists ev, any. split; [|exact C].
    unfold all_init_group. cbn [de_next all_deser] in E. rewrite E. reflexivity.
  Qed.

  Theorem all_element h evs v h' : elem = true ->
    element_of from_start (fun a h evs v h' => exists p, scattered blank ss (first_place ss) h evs p h' /\
      fst v = a /\ settled_at ss p (snd v)) h evs v h' ->
    reads_element blank des h evs v h'.
  Proof.
    intros EL H. unfold reads_element.
    assert (DI : de_init des = all_init_element from_start ms) by (cbn [de_init all_deser]; rewrite EL; reflexivity).
    rewrite DI.
    destruct H as [(n & attrs & h0 & a & h1 & body & n' & h2 & -> & E0 & FS & (p & SC & EA & SA) & E3)|
                   (n & attrs & h0 & a & h1 & -> & E0 & FS & (p & SC & EA & SA))]; destruct v as [va vals]; cbn [fst snd] in *; subst va;
      destruct (run_all a _ _ _ _ _ SC 0 _ _ eq_refl _ (new_all a)) as (i' & G' & m' & st' & -> & FD & AT).
    - eapply begins_more; [exact E0|cbn [all_init_element]; rewrite FS; reflexivity|exact I|].
      destruct (end_all a i' _ _ _ vals h' n' AT SA) as (any & NX).
      eapply fed_then; [exact FD|exact E3|exact NX|rewrite EL; exact I|discriminate].
    - apply fed_none in FD as [<- ->].
      eapply (begins_one blank des _ h (EEmpty n attrs) h0 (AData (a, vals)) DNone false h'); [exact E0| |exact I|discriminate].
      cbn [all_init_element]. rewrite FS. cbn [obind]. rewrite (finish_all a i' _ _ _ vals h' AT SA). reflexivity.
  Qed.
End All.
