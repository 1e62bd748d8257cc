(** Proofs about the generated deserializers: sequences. *)
From Verif Require Import GenModel GenSpec.
From Coq Require Import Lia.
Local Open Scope list_scope.

(** ** Small facts *)
Lemma ignorable_kind blank e : ignorable blank e -> is_tag e = false /\ is_end e = false.
Proof. destruct e; cbn; intros H; try (split; reflexivity); discriminate H. Qed.

Lemma consumed_from blank ev any : consumed blank ev -> from_event ev any = HBreak ev any.
Proof.
  destruct ev as [|e|e]; cbn; intros H; try reflexivity.
  destruct (ignorable_kind _ _ H) as [-> ->]. reflexivity.
Qed.

Lemma consumed_from_end blank ev any : consumed blank ev -> from_event_end ev any = HBreak ev any.
Proof.
  destruct ev as [|e|e]; cbn; intros H; try reflexivity.
  destruct (ignorable_kind _ _ H) as [_ ->]. reflexivity.
Qed.

Lemma from_event_tag e any : is_tag e = true -> from_event (DContinue e) any = HContinue e any.
Proof. cbn. intros ->. reflexivity. Qed.

Lemma from_event_end' n any : from_event (DContinue (EEnd n)) any = HContinue (EEnd n) any.
Proof. reflexivity. Qed.

Lemma tag_not_end e : is_tag e = true -> is_end e = false.
Proof. destruct e; cbn; congruence. Qed.

Lemma add_length {V} i (v : V) got : length (add_value i v got) = length got.
Proof. revert i. induction got as [|g got IH]; intros [|i]; cbn; try reflexivity. f_equal. apply IH. Qed.

Lemma add_same {V} i (v : V) got : i < length got -> nth i (add_value i v got) [] = nth i got [] ++ [v].
Proof.
  revert i. induction got as [|g got IH]; intros [|i] H; cbn in *; try lia; try reflexivity. apply IH. lia.
Qed.

Lemma add_other {V} i k (v : V) got : i <> k -> nth k (add_value i v got) [] = nth k got [].
Proof.
  revert i k. induction got as [|g got IH]; intros [|i] [|k] H; cbn; try reflexivity; try lia. apply IH. lia.
Qed.

Lemma set_add {V} i (v : V) got : set_nth i (nth i got [] ++ [v]) got = add_value i v got.
Proof. revert i. induction got as [|g got IH]; intros [|i]; cbn; try reflexivity. f_equal. apply IH. Qed.

Lemma nth_empty {X V : Type} (l : list X) k : nth k (map (fun _ => @nil V) l) [] = [].
Proof. revert k. induction l as [|x l IH]; intros [|k]; cbn; try reflexivity. apply IH. Qed.

Lemma Forall2_nth {X Y : Type} (R : X -> Y -> Prop) l l' k x :
  Forall2 R l l' -> nth_error l k = Some x -> exists y, nth_error l' k = Some y /\ R x y.
Proof.
  intros F. revert k. induction F as [|a b l l' H F IH]; intros [|k] E; cbn in *; try discriminate E.
  - injection E as <-. exists b. split; [reflexivity|exact H].
  - apply IH. exact E.
Qed.

Lemma Forall2_nth_r {X Y : Type} (R : X -> Y -> Prop) l l' k y :
  Forall2 R l l' -> nth_error l' k = Some y -> exists x, nth_error l k = Some x /\ R x y.
Proof.
  intros F. revert k. induction F as [|a b l l' H F IH]; intros [|k] E; cbn in *; try discriminate E.
  - injection E as <-. exists a. split; [reflexivity|exact H].
  - apply IH. exact E.
Qed.

Lemma Forall2_len {X Y : Type} (R : X -> Y -> Prop) l l' : Forall2 R l l' -> length l = length l'.
Proof. induction 1; cbn; congruence. Qed.

(** ** Occurrences *)
Section Occ.
  Context {V D : Type}.
  Implicit Types m : member V D.

  Definition roomb (x : max_occurs) (n : nat) : bool :=
    match x with Bounded max => Nat.ltb n max | Unbounded => true end.
  Lemma roomb_iff (s : slot V) n : roomb (s_max s) n = true <-> room s n.
  Proof. unfold roomb, room. destruct (s_max s); [tauto|]. apply Nat.ltb_lt. Qed.

  (** The kinds of occurrences of a member that may occur. *)
  Lemma occ_cases blank m s : member_ok blank m s ->
    (m_occ m = OSingle /\ m_min m = 1 /\ m_max m = Bounded 1 /\ s_min s = 1) \/
    (m_occ m = OOptional /\ m_max m = Bounded 1 /\ s_min s = 0) \/
    (m_occ m = ODynamic /\ s_min s = m_min m /\ match m_max m with Bounded n => 2 <= n | Unbounded => True end) \/
    (exists n, m_occ m = OStatic n /\ m_min m = n /\ m_max m = Bounded n /\ s_min s = n /\ 2 <= n).
  Proof.
    intros (_ & _ & B & _ & E & _). unfold m_occ, from_occurs in *.
    destruct (m_max m) as [|b].
    - destruct (m_min m) as [|[|n]] eqn:EM; cbn in *; right; right; left; repeat split; auto.
    - destruct B as [B1 B2]. destruct (m_min m) as [|[|n]] eqn:EM; cbn in *.
      + destruct b as [|[|b]]; [lia|right; left; auto|right; right; left; repeat split; auto; lia].
      + destruct b as [|[|b]]; [lia|destruct (m_opt m) eqn:EO; rewrite ?EO in E|].
        * right; left; auto.
        * left; auto.
        * right; right; left. repeat split; auto; lia.
      + destruct b as [|[|b]]; [lia|lia|]. destruct (Nat.eqb n b) eqn:EB.
        * apply Nat.eqb_eq in EB. subst b. right; right; right. exists (S (S n)). repeat split; auto; lia.
        * right; right; left. repeat split; auto; lia.
  Qed.

  Lemma store_ok blank m s vals v : member_ok blank m s -> room s (length vals) ->
    store m vals v = Ok (vals ++ [v]).
  Proof.
    intros OK R. unfold store. pose proof OK as (_ & _ & _ & EM & _). unfold room in R. rewrite EM in R.
    destruct (occ_cases _ _ _ OK) as [(-> & _ & E & _)|[(-> & E & _)|[(-> & _)|(n & -> & _)]]]; try reflexivity;
      rewrite E in R; destruct vals; cbn in *; try reflexivity; lia.
  Qed.

  Lemma push_defaults_ok (df : dhelper -> outcome kind (V * dhelper)) v0 : (forall h, df h = Ok (v0, h)) ->
    forall n h vals, push_defaults df n h vals = Ok (vals ++ repeat v0 n, h).
  Proof.
    intros E n. induction n as [|n IH]; intros h vals; cbn [push_defaults repeat].
    - rewrite app_nil_r. reflexivity.
    - rewrite E, IH, <- app_assoc. reflexivity.
  Qed.

  Lemma finish_field_ok blank m s got vals h : member_ok blank m s -> settled s got vals ->
    match s_max s with Bounded n => length got <= n | Unbounded => True end ->
    finish_field m got h = Ok (vals, h).
  Proof.
    intros OK ST B. pose proof OK as (_ & _ & B0 & EM & _ & DF).
    unfold finish_field.
    assert (SC : (s_min s <= length got /\ vals = got) \/
      (exists v, vals = got ++ repeat v (s_min s - length got) /\
        exists df, m_default m = Some df /\ forall h, df h = Ok (v, h))).
    { destruct ST as [ST|(v & E & ->)]; [left; exact ST|]. destruct DF as [Z|DF].
      - left. rewrite Z. cbn. rewrite app_nil_r. split; [lia|reflexivity].
      - right. exists v. split; [reflexivity|]. rewrite E in DF.
        destruct (m_default m) as [df|]; [exists df; split; [reflexivity|exact DF]|elim DF]. }
    destruct (occ_cases _ _ _ OK) as [(-> & EMN & E & ES)|[(-> & E & ES)|[(-> & ES & E)|(n & -> & EMN & E & ES & N2)]]].
    - rewrite EM, E in B. destruct SC as [[L ->]|(v & -> & df & MD & F)].
      + rewrite ES in L. destruct got as [|g [|g' got]]; cbn in *; try lia.
        destruct (m_default m); reflexivity.
      + rewrite ?MD, ES. destruct got as [|g [|g' got]]; cbn in *; try lia.
        * rewrite F. reflexivity.
        * reflexivity.
    - destruct SC as [[_ ->]|(v & -> & _)]; [reflexivity|]. rewrite ES. cbn. rewrite app_nil_r. reflexivity.
    - destruct SC as [[L ->]|(v & -> & df & MD & F)].
      + destruct (m_min m) as [|mn] eqn:EMN; [reflexivity|].
        destruct (m_default m) as [df|] eqn:EDF.
        * unfold finish_vec_default. replace (S mn - length got) with 0 by lia. reflexivity.
        * unfold finish_vec. replace (Nat.ltb (length got) (S mn)) with false by (symmetry; apply Nat.ltb_ge; lia). reflexivity.
      + rewrite ?MD, ES. destruct (m_min m) as [|mn] eqn:EMN.
        * cbn. rewrite app_nil_r. reflexivity.
        * unfold finish_vec_default. apply push_defaults_ok. exact F.
    - rewrite EM, E in B. destruct SC as [[L ->]|(v & -> & df & MD & F)].
      + rewrite ES in L. assert (length got = n) as LN by lia.
        destruct (m_default m) as [df|] eqn:EDF.
        * unfold finish_arr_default, finish_vec_default. replace (n - length got) with 0 by lia. cbn.
          rewrite LN, Nat.eqb_refl. reflexivity.
        * unfold finish_arr. rewrite LN, Nat.eqb_refl. reflexivity.
      + rewrite ?MD, ES.
        unfold finish_arr_default, finish_vec_default. rewrite (push_defaults_ok df v F).
        rewrite app_length, repeat_length. replace (length got + (n - length got)) with n by lia.
        rewrite Nat.eqb_refl. reflexivity.
  Qed.

  Lemma finish_fields_ok blank ms ss got vals h : Forall2 (member_ok (V:=V) (D:=D) blank) ms ss ->
    length got = length ss -> length vals = length ss ->
    (forall k s, nth_error ss k = Some s ->
      settled s (nth k got []) (nth k vals []) /\
      match s_max s with Bounded n => length (nth k got []) <= n | Unbounded => True end) ->
    finish_fields ms got h = Ok (vals, h).
  Proof.
    intros F. revert got vals. induction F as [|m s ms ss OK F IH]; intros got vals L1 L2 H.
    - destruct got, vals; try discriminate L1; try discriminate L2. reflexivity.
    - destruct got as [|g got], vals as [|v vals]; try discriminate L1; try discriminate L2.
      cbn [finish_fields]. destruct (H 0 s eq_refl) as [H0 H1]. cbn in H0, H1.
      rewrite (finish_field_ok _ _ _ _ _ h OK H0 H1). cbn [obind].
      rewrite (IH got vals); [reflexivity|cbn in L1; lia|cbn in L2; lia|].
      intros k t E. exact (H (S k) t E).
  Qed.
End Occ.

(** ** Feeding *)
Section Fed.
  Variable blank : bytes -> option bool.
  Context {V D : Type}.
  Variable des : deser V D.

  (** Zero or more events, all of them used up. *)
  Inductive fed : D -> dhelper -> list event -> D -> dhelper -> Prop :=
  | fed_nil d h : fed d h [] d h
  | fed_cons d h e h1 d' ev any h2 evs d'' h3 :
      dh_event h e = Some h1 -> de_next des d h1 e = Ok (DOut (ADes d') ev any, h2) ->
      consumed blank ev -> fed d' h2 evs d'' h3 -> fed d h (e :: evs) d'' h3.

  Lemma fed_app d h evs d' h' evs' d'' h'' :
    fed d h evs d' h' -> fed d' h' evs' d'' h'' -> fed d h (evs ++ evs') d'' h''.
  Proof.
    induction 1; intros F; cbn; [exact F|]. eapply fed_cons; eauto.
  Qed.

  Lemma feeds_fed d h evs d' h' : feeds blank des d h evs (ADes d') h' -> fed d h evs d' h'.
  Proof.
    intros F. remember (ADes d') as art eqn:E. revert d' E.
    induction F; intros d0 E; subst.
    - eapply fed_cons; eauto. apply fed_nil.
    - eapply fed_cons; eauto.
  Qed.

  Lemma fed_feeds d h evs d' h' : fed d h evs d' h' -> evs <> [] -> feeds blank des d h evs (ADes d') h'.
  Proof.
    induction 1 as [|d h e h1 d1 ev any h2 evs d2 h3 E1 E2 C F IH]; intros N; [elim N; reflexivity|].
    destruct evs as [|e' evs].
    - inversion F; subst. eapply feeds_last; eauto. discriminate.
    - eapply feeds_step; eauto. apply IH. discriminate.
  Qed.

  (** Zero or more events and then one after which there is a value. *)
  Lemma fed_then d h evs d' h' e h1 art ev any h2 :
    fed d h evs d' h' -> dh_event h' e = Some h1 -> de_next des d' h1 e = Ok (DOut art ev any, h2) ->
    consumed blank ev -> art <> ANone -> feeds blank des d h (evs ++ [e]) art h2.
  Proof.
    induction 1; intros E1 E2 C N; cbn.
    - eapply feeds_last; eauto.
    - eapply feeds_step; eauto.
  Qed.
End Fed.

(** ** Elements *)
Theorem element_implements blank {V D : Type} (m : member V D)
    (reads : dhelper -> list event -> V -> dhelper -> Prop) any :
  (forall h evs v h', reads h evs v h' -> reads_element blank (m_deser m) h evs v h' /\ begins_with_tag evs) ->
  implements blank (m_deser m) (init_start_tag m any) (element_lang (m_ns m, m_name m) reads).
Proof.
  intros R. split.
  - intros h evs v more h' ((e & rest & h1 & EE & E1 & FT) & -> & RD). destruct (R _ _ _ _ RD) as [RE BT].
    split; [exact BT|]. split.
    { intros e0 r0 h0 E0 D0. rewrite EE in E0. injection E0 as <- <-. rewrite E1 in D0. injection D0 as <-. exact FT. }
    exists (AData v). split; [|left; reflexivity]. unfold reads_element in RE. subst evs.
    assert (CT : check_tag h1 e (m_ns m) (m_name m) = true).
    { destruct FT as (l & -> & C). exact C. }
    assert (IE : init_start_tag m any h1 e = de_init (m_deser m) h1 e) by (unfold init_start_tag; rewrite CT; reflexivity).
    inversion RE; subst.
    + eapply begins_one; [eassumption| |eassumption|assumption]. replace h2 with h1 by congruence. rewrite IE. replace h1 with h2 by congruence. eassumption.
    + eapply begins_more; [eassumption| |eassumption|eassumption]. replace h2 with h1 by congruence. rewrite IE. replace h1 with h2 by congruence. eassumption.
  - intros h e T NF. exists any. unfold init_start_tag. destruct (check_tag h e (m_ns m) (m_name m)) eqn:C; [|reflexivity].
    elim NF. exists (m_ns m, m_name m). split; [reflexivity|exact C].
Qed.

(** ** One particle *)
Section One.
  Variable blank : bytes -> option bool.
  Context {V : Type}.
  Variable s : slot V.

  Inductive run1 : list V -> labels -> dhelper -> list event -> list V -> labels -> dhelper -> Prop :=
  | run1_stop got more h : run1 got more h [] got more h
  | run1_space got more h e h1 evs got' more' h2 :
      ignorable blank e -> dh_event h e = Some h1 ->
      run1 got more h1 evs got' more' h2 -> run1 got more h (e :: evs) got' more' h2
  | run1_item got more h e evs h0 v more1 h1 rest got' more' h2 :
      l_occ (s_lang s) h (e :: evs) v more1 h1 -> dh_event h e = Some h0 ->
      ~ fits h0 e more -> room s (length got) ->
      run1 (got ++ [v]) more1 h1 rest got' more' h2 ->
      run1 got more h (e :: evs ++ rest) got' more' h2.

  Lemma follows_run1 {D} (m : member V D) p h evs p' h' : member_ok blank m s ->
    follows blank [s] p h evs p' h' -> forall got more, p = (0, [got], more) ->
    exists got' more', p' = (0, [got'], more') /\ run1 got more h evs got' more' h'.
  Proof.
    intros (_ & IM & _) F. induction F as [p h|p h e h1 evs p' h2 IG E1 F IH|i got0 more0 h evs j s' v more1 h1 rest p' h2 ES OC ON F IH];
      intros got more E.
    - exists got, more. split; [exact E|apply run1_stop].
    - destruct (IH got more E) as (g & mo & E' & R). exists g, mo. split; [exact E'|]. eapply run1_space; eassumption.
    - injection E as -> -> ->. destruct j as [|j]; [|destruct j; discriminate ES]. injection ES as <-.
      destruct (proj1 (IM true) _ _ _ _ _ OC) as ((e & r & -> & T) & _ & art & BG & _).
      assert (exists h0, dh_event h e = Some h0) as (h0 & E0) by (inversion BG; subst; eexists; eassumption).
      destruct (ON e r h0 eq_refl E0) as (NM & t & ET & CASES). injection ET as <-.
      destruct CASES as [[_ RM]|(LT & _)]; [|lia]. cbn [nth] in RM.
      destruct (IH (got ++ [v]) more1 eq_refl) as (g & mo & E' & R). exists g, mo. split; [exact E'|].
      cbn. eapply run1_item; eassumption.
  Qed.

  Lemma run1_full got more h evs got' more' h' : run1 got more h evs got' more' h' -> ~ room s (length got) ->
    Forall (ignorable blank) evs /\ got' = got /\ more' = more.
  Proof.
    intros R N. induction R as [got more h|got more h e h1 evs got' more' h2 IG E1 R IH|]; [auto| |contradiction].
    destruct (IH N) as (F & -> & ->). auto.
  Qed.

  Lemma run1_grows got more h evs got' more' h' : run1 got more h evs got' more' h' ->
    match s_max s with Bounded n => length got <= n | Unbounded => True end ->
    match s_max s with Bounded n => length got' <= n | Unbounded => True end.
  Proof.
    induction 1 as [| |got more h e evs h0 v more1 h1 rest got' more' h2 OC E0 NF RM R IH]; auto.
    intros B. apply IH. unfold room in RM. destruct (s_max s); [exact Logic.I|]. rewrite app_length. cbn. lia.
  Qed.
End One.

(** Going on from an artifact. *)
Section Gone.
  Variable blank : bytes -> option bool.
  Context {V D : Type}.
  Variable des : deser V D.

  Definition gone (art : artifact V D) (h : dhelper) (evs : list event) (art' : artifact V D) (h' : dhelper) : Prop :=
    (evs = [] /\ art' = art /\ h' = h) \/ (exists d, art = ADes d /\ feeds blank des d h evs art' h').

  Lemma gone_nil art h : gone art h [] art h.
  Proof. left. auto. Qed.

  Lemma feeds_app d h evs d' h' evs' art h'' :
    feeds blank des d h evs (ADes d') h' -> feeds blank des d' h' evs' art h'' ->
    feeds blank des d h (evs ++ evs') art h''.
  Proof.
    intros F G. remember (ADes d') as x eqn:E. revert E G. induction F as [d h e h1 art0 ev any h2 E1 E2 C N|d h e h1 d1 ev any h2 evs art0 h3 E1 E2 C F IH]; intros E G.
    - subst art0. cbn. eapply feeds_step; eassumption.
    - cbn. eapply feeds_step; try eassumption. apply IH; assumption.
  Qed.

  Lemma feeds_gone d h evs art h' evs' art' h'' :
    feeds blank des d h evs art h' -> gone art h' evs' art' h'' -> feeds blank des d h (evs ++ evs') art' h''.
  Proof.
    intros F [(-> & -> & ->)|(d' & -> & G)]; [rewrite app_nil_r; exact F|]. eapply feeds_app; eassumption.
  Qed.

  Lemma begins_gone start h evs art h' evs' art' h'' :
    begins blank des start h evs art h' -> gone art h' evs' art' h'' ->
    begins blank des start h (evs ++ evs') art' h''.
  Proof.
    intros B G. inversion B as [h0 e h1 art0 ev any h2 E1 E2 C N|h0 e h1 d ev any h2 evs0 art0 h3 E1 E2 C F]; subst.
    - destruct G as [(-> & -> & ->)|(d' & -> & G)]; cbn; [eapply begins_one; eassumption|eapply begins_more; eassumption].
    - cbn. eapply begins_more; try eassumption. eapply feeds_gone; eassumption.
  Qed.

  Lemma feeds_not_none d h evs art h' : feeds blank des d h evs art h' -> art <> ANone.
  Proof. induction 1; assumption. Qed.

  Lemma gone_ends art h evs d h' e h1 art' ev any h2 : gone art h evs (ADes d) h' ->
    dh_event h' e = Some h1 -> de_next des d h1 e = Ok (DOut art' ev any, h2) -> consumed blank ev -> art' <> ANone ->
    gone art h (evs ++ [e]) art' h2.
  Proof.
    intros G E1 E2 C N. right. destruct G as [(-> & <- & ->)|(d' & -> & F)].
    - exists d. split; [reflexivity|]. cbn. eapply feeds_last; eassumption.
    - exists d'. split; [reflexivity|]. eapply feeds_app; [exact F|]. eapply feeds_last; eassumption.
  Qed.
End Gone.

(** ** Sequences *)
Section Sequence.
  Variable blank : bytes -> option bool.
  Context {V D A : Type}.
  Variable from_start : dhelper -> bytes -> list attr -> outcome kind (A * dhelper).
  Variables (elem : bool) (no_attrs : A) (allow_any mixed : bool).
  Variable ms : list (member V D).
  Variable ss : list (slot V).
  Hypothesis OK : Forall2 (member_ok blank) ms ss.

  Notation sdes := (sdes (V:=V) (D:=D) (A:=A)).
  Notation place := (GenSpec.place (V:=V)).
  Notation loop := (seq_loop (A:=A) elem allow_any mixed ms).
  Notation des := (seq_deser from_start elem no_attrs allow_any mixed ms).

  Definition st_at (k : nat) : sstate (D:=D) := if Nat.ltb k (length ms) then SAt k None else SDone.

  Lemma next_st k : next_state ms k = st_at (S k).
  Proof. reflexivity. Qed.

  Definition gotten (fields : list (list V)) (fb : option (sstate (D:=D))) (G : list (list V)) : Prop :=
    forall h, seq_flush ms fields fb h = Ok (G, h).

  Lemma gotten_none G : gotten G None G.
  Proof. intros h. reflexivity. Qed.

  Lemma nth_len {X} (l : list X) k x : nth_error l k = Some x -> k < length l.
  Proof. intros E. apply nth_error_Some. congruence. Qed.

  Lemma kind_cases (m : member V D) (s : slot V) : member_ok blank m s -> m_kind m = KindElement \/ m_kind m = KindGroup.
  Proof. intros (K & _). destruct (m_kind m); auto; elim K. Qed.

  Lemma seq_start_ok (m : member V D) : m_kind m = KindElement \/ m_kind m = KindGroup ->
    seq_start allow_any m = member_start m (allow_any || m_any m).
  Proof. intros [E|E]; unfold seq_start, member_start; rewrite E; reflexivity. Qed.

  (** Passing one particle that does not want the tag. *)
  Lemma skip_one fuel a fields fb h e any retry afb k m s G :
    nth_error ms k = Some m -> nth_error ss k = Some s ->
    is_tag e = true -> ~ fits h e (l_first (s_lang s)) ->
    enough s (length (nth k G [])) -> room s (length (nth k G [])) ->
    gotten fields fb G -> (fb = Some SInit -> nth k G [] = []) ->
    exists fields' fb' any', gotten fields' fb' G /\ (fb' = Some SInit -> fb = Some SInit) /\
      loop (S fuel) a (fields, SAt k None, fb, h) e any retry afb =
      loop fuel a (fields', st_at (S k), fb', h) e any' retry afb.
  Proof.
    intros EM ES T NF EN RM GT FI.
    destruct (Forall2_nth _ _ _ _ _ OK EM) as (s' & ES' & MO). rewrite ES in ES'. injection ES' as <-.
    pose proof (kind_cases _ _ MO) as KC.
    pose proof MO as (_ & IM & _ & EMX & _ & DF).
    destruct (IM (allow_any || m_any m)) as [_ RF].
    destruct (RF h e T NF) as (x & RE).
    assert (NT : mkind_eqb (m_kind m) KindText = false) by (destruct KC as [-> | ->]; reflexivity).
    assert (NA : mkind_eqb (m_kind m) KindAny = false) by (destruct KC as [-> | ->]; reflexivity).
    cbn [seq_loop]. rewrite (tag_not_end _ T), EM, NT, NA, T. cbn [orb andb].
    rewrite (seq_start_ok _ KC), RE. cbn [obind]. unfold seq_handle. cbn [o_art o_ev o_any].
    assert (ON : exists fields' fb' any', gotten fields' fb' G /\ (fb' = Some SInit -> fb = Some SInit) /\
      (let* (ho, hs') := Ok (from_event (DContinue e) x, (fields, next_state ms k, fb, h)) in
       match ho with
       | HContinue e' y => loop fuel a hs' e' (any || y) retry afb
       | HBreak de y => seq_end a hs' de y
       end) = loop fuel a (fields', st_at (S k), fb', h) e any' retry afb).
    { exists fields, fb, (any || x). split; [exact GT|]. split; [auto|]. cbn [obind].
      rewrite (from_event_tag _ _ T), next_st. reflexivity. }
    unfold seq_none. destruct (occ_cases _ _ _ MO) as [(EO & EMN & EX & SM)|[(EO & EX & SM)|R]].
    - rewrite EO, EMN. destruct (m_default m) as [df|] eqn:ED; [exact ON|].
      destruct EN as [EN|EN]; [|destruct DF as [DF|DF]; [rewrite DF in SM; discriminate SM|destruct (s_default s); [elim DF|elim EN; reflexivity]]].
      unfold room in RM. rewrite EMX, EX in RM. lia.
    - rewrite EO. destruct (m_min m); exact ON.
    - assert (SM : s_min s = m_min m) by (destruct R as [(_ & E & _)|(n & _ & E1 & _ & E2 & _)]; congruence).
      destruct (m_min m) as [|mn] eqn:EMN; [exact ON|].
      destruct (m_default m) as [df|] eqn:ED; [destruct R as [(-> & _)|(n & -> & _)]; exact ON|].
      destruct EN as [EN|EN]; [|destruct DF as [DF|DF]; [rewrite DF in SM; discriminate SM|destruct (s_default s); [elim DF|elim EN; reflexivity]]].
      assert (NI : fb <> Some SInit). { intros E. rewrite (FI E) in EN. cbn in EN. lia. }
      exists G, None, (any || x). split; [apply gotten_none|]. split; [discriminate|].
      assert (BR : (let* (fields', h') := seq_flush ms fields fb h in
                    if Nat.ltb (length (field_at k fields')) (S mn)
                    then Ok (return_to_root (DContinue e) x, (fields', SUnknown (D:=D), Some (SAt (D:=D) k None), h'))
                    else Ok (from_event (DContinue e) x, (fields', next_state ms k, None, h'))) =
                   Ok (HContinue e x, (G, st_at (S k), None, h))).
      { rewrite (GT h). cbn [obind]. unfold field_at.
        replace (Nat.ltb (length (nth k G [])) (S mn)) with false by (symmetry; apply Nat.ltb_ge; lia).
        rewrite (from_event_tag _ _ T), next_st. reflexivity. }
      destruct R as [(-> & _)|(n & -> & _)]; destruct fb as [[]|]; try (elim NI; reflexivity);
        rewrite BR; reflexivity.
  Qed.

  (** Passing all particles from [k] up to [j]. *)
  Lemma skip_to n : forall fuel a fields fb h e any retry afb k j G,
    j - k = n -> k <= j <= length ms -> is_tag e = true ->
    (forall i s, k <= i < j -> nth_error ss i = Some s ->
      ~ fits h e (l_first (s_lang s)) /\ enough s (length (nth i G [])) /\ room s (length (nth i G []))) ->
    gotten fields fb G -> (fb = Some SInit -> forall i, nth i G [] = []) ->
    exists fields' fb' any', gotten fields' fb' G /\ (fb' = Some SInit -> fb = Some SInit) /\
      loop (n + fuel) a (fields, st_at k, fb, h) e any retry afb =
      loop fuel a (fields', st_at j, fb', h) e any' retry afb.
  Proof.
    induction n as [|n IH]; intros fuel a fields fb h e any retry afb k j G EN B T HS GT FI.
    - assert (k = j) as -> by lia. exists fields, fb, any. auto.
    - assert (LK : k < length ms) by lia.
      destruct (nth_error ms k) as [m|] eqn:EM; [|apply nth_error_None in EM; lia].
      destruct (Forall2_nth _ _ _ _ _ OK EM) as (s & ES & MO).
      destruct (HS k s) as (NF & E1 & R1); [lia|exact ES|].
      unfold st_at at 1. replace (Nat.ltb k (length ms)) with true by (symmetry; apply Nat.ltb_lt; lia).
      change (S n + fuel) with (S (n + fuel)).
      destruct (skip_one (n + fuel) a fields fb h e any retry afb k m s G EM ES T NF E1 R1 GT (fun E => FI E k))
        as (f1 & b1 & a1 & G1 & I1 & ->).
      destruct (IH fuel a f1 b1 h e a1 retry afb (S k) j G) as (f2 & b2 & a2 & G2 & I2 & ->); try assumption; try lia.
      + intros i t Hi. apply HS. lia.
      + intros E. apply FI. apply I1. exact E.
      + exists f2, b2, a2. split; [exact G2|]. split; [|reflexivity]. intros E. apply I1, I2, E.
  Qed.

  (** The machine after the particle number [j] has become [art]. *)
  Definition after (a : A) (G : list (list V)) (j : nat) (art : artifact V D) : sdes :=
    match art with
    | AData v =>
        SDes a (add_value j v G)
          match nth_error ms j with
          | Some m => data_state ms j m (length (nth j (add_value j v G) []))
          | None => SDone
          end
    | ADes d => SDes a G (SAt j (Some d))
    | ANone => SDes a G SDone
    end.

  Lemma stored j m s G v : nth_error ms j = Some m -> nth_error ss j = Some s -> length G = length ms ->
    room s (length (nth j G [])) -> store_at ms j v G = Ok (add_value j v G).
  Proof.
    intros EM ES L R. unfold store_at. rewrite EM. destruct (Forall2_nth _ _ _ _ _ OK EM) as (s' & ES' & MO).
    rewrite ES in ES'. injection ES' as <-. unfold field_at. rewrite (store_ok _ _ _ _ _ MO R). cbn [obind].
    rewrite set_add. reflexivity.
  Qed.

  (** What the handler does with a result whose event is used up. *)
  Lemma handled j m s G fields fb h a art ev any :
    nth_error ms j = Some m -> nth_error ss j = Some s -> length G = length ms ->
    room s (length (nth j G [])) -> gotten fields fb G -> consumed blank ev -> art <> ANone ->
    (let* (ho, hs') := seq_handle ms j m fields (DOut art ev any) fb h in
     match ho with
     | HContinue _ _ => Panic
     | HBreak de x => seq_end a hs' de x
     end) = Ok (DOut (ADes (after a G j art)) ev any, h) /\
    exists hs', seq_handle ms j m fields (DOut art ev any) fb h = Ok (HBreak ev any, hs').
  Proof.
    intros EM ES L R GT C N. unfold seq_handle. cbn [o_art o_ev o_any].
    destruct art as [|v|d]; [elim N; reflexivity| |]; rewrite (GT h); cbn [obind].
    - rewrite (stored _ _ _ _ v EM ES L R). cbn [obind]. rewrite (consumed_from _ _ any C). split; [|eexists; reflexivity].
      cbn [seq_end after]. rewrite EM. reflexivity.
    - rewrite (consumed_from _ _ any C). split; [|eexists; reflexivity]. reflexivity.
  Qed.

  Lemma accept fuel a fields fb h e any retry afb j m s G art ev x h2 :
    nth_error ms j = Some m -> nth_error ss j = Some s -> length G = length ms ->
    room s (length (nth j G [])) -> gotten fields fb G -> consumed blank ev -> art <> ANone ->
    is_tag e = true -> member_start m (allow_any || m_any m) h e = Ok (DOut art ev x, h2) ->
    loop (S fuel) a (fields, SAt j None, fb, h) e any retry afb =
    Ok (DOut (ADes (after a G j art)) ev x, h2).
  Proof.
    intros EM ES L R GT C N T ST.
    destruct (Forall2_nth _ _ _ _ _ OK EM) as (s' & ES' & MO).
    pose proof (kind_cases _ _ MO) as KC.
    cbn [seq_loop]. rewrite (tag_not_end _ T), EM, T.
    replace (mkind_eqb (m_kind m) KindText) with false by (destruct KC as [-> | ->]; reflexivity).
    replace (mkind_eqb (m_kind m) KindAny) with false by (destruct KC as [-> | ->]; reflexivity).
    cbn [orb andb]. rewrite (seq_start_ok _ KC), ST. cbn [obind].
    destruct (handled j m s G fields fb h2 a art ev x EM ES L R GT C N) as [E (hs' & E')].
    rewrite E' in E |- *. exact E.
  Qed.

  Lemma continue_one fuel a G h e any retry afb j m s d art ev x h2 :
    nth_error ms j = Some m -> nth_error ss j = Some s -> length G = length ms ->
    room s (length (nth j G [])) -> consumed blank ev -> art <> ANone ->
    de_next (m_deser m) d h e = Ok (DOut art ev x, h2) ->
    loop (S fuel) a (G, SAt j (Some d), None, h) e any retry afb =
    Ok (DOut (ADes (after a G j art)) ev x, h2).
  Proof.
    intros EM ES L R C N ST. cbn [seq_loop]. rewrite EM, ST. cbn [obind].
    destruct (handled j m s G G None h2 a art ev x EM ES L R (gotten_none G) C N) as [E (hs' & E')].
    rewrite E' in E |- *. exact E.
  Qed.

  (** Feeding the machine feeds the particle. *)
  Lemma feed_inside j m s G a d h evs art h' :
    nth_error ms j = Some m -> nth_error ss j = Some s -> length G = length ms ->
    room s (length (nth j G [])) ->
    feeds blank (m_deser m) d h evs art h' ->
    fed blank des (SDes a G (SAt j (Some d))) h evs (after a G j art) h'.
  Proof.
    intros EM ES L R F. induction F as [d h e h1 art ev any h2 E1 E2 C N|d h e h1 d' ev any h2 evs art h3 E1 E2 C F IH].
    - eapply fed_cons; [exact E1| |exact C|apply fed_nil].
      cbn [de_next]. unfold seq_deser, seq_next, seq_fuel. cbn [de_next sd_attrs sd_fields sd_state]. rewrite Nat.add_comm. cbn [Nat.add].
      eapply continue_one; eauto.
    - eapply fed_cons; [exact E1| |exact C|exact IH].
      unfold seq_deser, seq_next, seq_fuel. cbn [de_next sd_attrs sd_fields sd_state]. rewrite Nat.add_comm. cbn [Nat.add].
      eapply (continue_one _ a G h1 e false false None j m s d (ADes d') ev any h2); try eassumption. discriminate.
  Qed.

  (** ** Places *)
  Definition bounded (got : list (list V)) : Prop :=
    forall k s, nth_error ss k = Some s ->
      match s_max s with Bounded n => length (nth k got []) <= n | Unbounded => True end.

  Definition place_ok (p : place) : Prop :=
    match p with
    | (i, got, _) => i < length ms /\ length got = length ms /\ bounded got /\
                     forall k, i < k -> nth k got [] = []
    end.

  Inductive at_place (a : A) : place -> sdes -> Prop :=
  | at_init : at_place a (first_place ss) (seq_new ms a)
  | at_run i got more G d m s v :
      nth_error ms i = Some m -> nth_error ss i = Some s ->
      length G = length ms -> room s (length (nth i G [])) ->
      got = add_value i v G -> done_with blank (m_deser m) v more d ->
      at_place a (i, got, more) (SDes a G (SAt i (Some d)))
  | at_rest i got more m s :
      nth_error ms i = Some m -> nth_error ss i = Some s ->
      at_place a (i, got, more)
        (SDes a got (if roomb (s_max s) (length (nth i got [])) then SAt i None else st_at (S i))).

  Lemma data_state_room i m s len : nth_error ms i = Some m -> nth_error ss i = Some s -> 1 <= len ->
    data_state ms i m len = if roomb (s_max s) len then SAt i None else st_at (S i).
  Proof.
    intros EM ES L. destruct (Forall2_nth _ _ _ _ _ OK EM) as (s' & ES' & MO). rewrite ES in ES'. injection ES' as <-.
    pose proof MO as (_ & _ & _ & EX & _). unfold data_state, roomb. rewrite EX, next_st.
    destruct (occ_cases _ _ _ MO) as [(-> & _ & -> & _)|[(-> & -> & _)|[(-> & _ & _)|(n & -> & _)]]].
    - replace (Nat.ltb len 1) with false by (symmetry; apply Nat.ltb_ge; lia). reflexivity.
    - replace (Nat.ltb len 1) with false by (symmetry; apply Nat.ltb_ge; lia). reflexivity.
    - destruct (m_max m); reflexivity.
    - destruct (m_max m); reflexivity.
  Qed.

  Lemma des_state_room i m s len : nth_error ms i = Some m -> nth_error ss i = Some s ->
    des_state ms i m len = if roomb (s_max s) (S len) then SAt i None else st_at (S i).
  Proof.
    intros EM ES. destruct (Forall2_nth _ _ _ _ _ OK EM) as (s' & ES' & MO). rewrite ES in ES'. injection ES' as <-.
    pose proof MO as (_ & _ & B & EX & _). unfold des_state, roomb. rewrite EX, next_st.
    destruct (occ_cases _ _ _ MO) as [(-> & _ & E & _)|[(-> & E & _)|[(-> & _ & E)|(n & -> & _ & E & _ & N2)]]].
    - rewrite E. replace (Nat.ltb (S len) 1) with false by (symmetry; apply Nat.ltb_ge; lia). reflexivity.
    - rewrite E. replace (Nat.ltb (S len) 1) with false by (symmetry; apply Nat.ltb_ge; lia). reflexivity.
    - destruct (m_max m) as [|b]; [reflexivity|].
      replace (Nat.ltb len (b - 1)) with (Nat.ltb (S len) b); [reflexivity|].
      destruct (Nat.ltb_spec (S len) b), (Nat.ltb_spec len (b - 1)); try reflexivity; lia.
    - rewrite E. replace (Nat.ltb len (n - 1)) with (Nat.ltb (S len) n); [reflexivity|].
      destruct (Nat.ltb_spec (S len) n), (Nat.ltb_spec len (n - 1)); try reflexivity; lia.
  Qed.

  Lemma after_place a G j m s art v more : nth_error ms j = Some m -> nth_error ss j = Some s ->
    length G = length ms -> room s (length (nth j G [])) -> complete blank (m_deser m) v more art ->
    at_place a (j, add_value j v G, more) (after a G j art).
  Proof.
    intros EM ES L R C. pose proof (nth_len _ _ _ EM) as LJ. destruct C as [->|(d & -> & DW)].
    - cbn [after]. rewrite EM. rewrite (data_state_room j m s); [|exact EM|exact ES|rewrite add_same by lia; rewrite app_length; cbn; lia].
      eapply at_rest; eassumption.
    - cbn [after]. eapply at_run; eauto.
  Qed.

  (** Where the machine looks for the next element, once a tag is not for the last occurrence. *)
  Definition resume (p : place) : nat :=
    match p with
    | (i, got, _) =>
        match nth_error ss i with
        | Some s => if roomb (s_max s) (length (nth i got [])) then i else S i
        | None => i
        end
    end.

  Lemma ready a p d h e : at_place a p d -> place_ok p -> is_tag e = true -> ~ fits h e (snd p) ->
    exists fields fb any, gotten fields fb (snd (fst p)) /\
      (fb = Some SInit -> forall k, nth k (snd (fst p)) [] = []) /\
      (exists n, n <= 1 /\ forall fuel, loop (n + fuel) a (sd_fields d, sd_state d, None, h) e false false None =
        loop fuel a (fields, st_at (resume p), fb, h) e any false None).
  Proof.
    intros AT PO T NF. destruct AT as [|i got more G d m s v EM ES L R EG DW|i got more m s EM ES].
    - cbn [fst snd first_place] in *. exists (map (fun _ => []) ms), (Some SInit), (allow_any || false)%bool.
      assert (LN : forall (l : list (member V D)) (l' : list (slot V)), length l = length l' ->
        map (fun _ => @nil V) l = map (fun _ => @nil V) l').
      { induction l as [|x l IH]; intros [|y l'] E; try discriminate E; cbn; [reflexivity|]. f_equal. apply IH. cbn in E. lia. }
      split; [intros h0; cbn; f_equal; f_equal; apply LN; exact (Forall2_len _ _ _ OK)|].
      split; [intros _ k; apply nth_empty|].
      exists 1. split; [lia|]. intros fuel. cbn [Nat.add]. cbn [seq_new sd_fields sd_state]. cbn [seq_loop].
      rewrite (tag_not_end _ T). cbn [get_or_insert].
      assert (resume (first_place ss) = 0) as ->.
      { unfold resume, first_place. destruct (nth_error ss 0) as [s|] eqn:E0; [|reflexivity].
        rewrite nth_empty. cbn. destruct (Forall2_nth_r _ _ _ _ _ OK E0) as (m & _ & MO).
        pose proof MO as (_ & _ & B & EX & _). rewrite EX. unfold roomb. destruct (m_max m); [reflexivity|].
        destruct B as [B _]. replace (Nat.ltb 0 n) with true by (symmetry; apply Nat.ltb_lt; lia). reflexivity. }
      unfold st_at. destruct PO as (LP & _). replace (Nat.ltb 0 (length ms)) with true by (symmetry; apply Nat.ltb_lt; lia).
      reflexivity.
    - cbn [fst snd] in *. pose proof (nth_len _ _ _ EM) as LI.
      destruct DW as (inv & ID & DW). destruct (DW d ID) as (FIN & _ & RF & _).
      destruct (RF h e T NF) as (art & x & NE & CASES).
      assert (NG : nth i got [] = nth i G [] ++ [v]) by (subst got; apply add_same; lia).
      assert (RS : resume (i, got, more) = if roomb (s_max s) (S (length (nth i G []))) then i else S i).
      { unfold resume. rewrite ES, NG, app_length. cbn. rewrite Nat.add_comm. reflexivity. }
      assert (ST : (if roomb (s_max s) (S (length (nth i G []))) then SAt i None else st_at (S i)) = st_at (resume (i, got, more))).
      { rewrite RS. destruct (roomb _ _); [|reflexivity]. unfold st_at.
        replace (Nat.ltb i (length ms)) with true by (symmetry; apply Nat.ltb_lt; lia). reflexivity. }
      destruct CASES as [->|(d' & -> & FIN')].
      + exists got, None, x. split; [apply gotten_none|]. split; [discriminate|].
        exists 1. split; [lia|]. intros fuel. cbn [Nat.add sd_fields sd_state seq_loop]. rewrite EM, NE. cbn [obind].
        unfold seq_handle. cbn [o_art o_ev o_any seq_flush obind]. rewrite (stored _ _ _ _ v EM ES L R). cbn [obind].
        rewrite (from_event_tag _ _ T). rewrite <- EG. unfold field_at. cbn [orb].
        rewrite (data_state_room i m s); [|exact EM|exact ES|rewrite NG, app_length; cbn; lia].
        rewrite NG, app_length. cbn [length]. rewrite Nat.add_comm. cbn [Nat.add]. rewrite ST. reflexivity.
      + exists G, (Some (SAt i (Some d'))), x. split.
        { intros h0. cbn [seq_flush seq_finish_state]. rewrite EM, FIN'. cbn [obind].
          rewrite (stored _ _ _ _ v EM ES L R). cbn [obind]. rewrite EG. reflexivity. }
        split; [discriminate|].
        exists 1. split; [lia|]. intros fuel. cbn [Nat.add sd_fields sd_state seq_loop]. rewrite EM, NE. cbn [obind].
        unfold seq_handle. cbn [o_art o_ev o_any seq_flush obind]. rewrite (from_event_tag _ _ T). cbn [orb].
        unfold field_at. rewrite (des_state_room i m s) by eassumption. rewrite ST. reflexivity.
    - cbn [fst snd] in *. pose proof (nth_len _ _ _ EM) as LI. exists got, None, false. split; [apply gotten_none|]. split; [discriminate|].
      exists 0. split; [lia|]. intros fuel. cbn [Nat.add sd_fields sd_state]. unfold resume. rewrite ES.
      destruct (roomb (s_max s) (length (nth i got []))); [|reflexivity].
      unfold st_at. replace (Nat.ltb i (length ms)) with true by (symmetry; apply Nat.ltb_lt; lia). reflexivity.
  Qed.

  Lemma first_ok : 0 < length ms -> place_ok (first_place ss).
  Proof.
    intros L. unfold place_ok, first_place. rewrite map_length, (Forall2_len _ _ _ OK).
    split; [rewrite <- (Forall2_len _ _ _ OK); exact L|]. split; [reflexivity|]. split; [|intros k _; apply nth_empty].
    intros k s E. rewrite nth_empty. destruct (s_max s); [exact I|]. cbn. lia.
  Qed.

  (** The first event has left the first state. *)
  Definition begun (d : sdes) (h : dhelper) (evs : list event) (d' : sdes) (h' : dhelper) : Prop :=
    exists e rest h1 d1 ev any h2, evs = e :: rest /\ dh_event h e = Some h1 /\
      de_next des d h1 e = Ok (DOut (ADes d1) ev any, h2) /\ consumed blank ev /\
      sd_state d1 <> SInit /\ fed blank des d1 h2 rest d' h'.

  Lemma begun_fed d h evs d' h' : begun d h evs d' h' -> fed blank des d h evs d' h'.
  Proof.
    intros (e & rest & h1 & d1 & ev & any & h2 & -> & E1 & E2 & C & _ & F). eapply fed_cons; eassumption.
  Qed.

  Lemma after_not_init a G j art : art <> ANone -> sd_state (after a G j art) <> SInit.
  Proof.
    intros N. destruct art as [|v|d]; [elim N; reflexivity| |cbn; discriminate]. cbn [after sd_state].
    destruct (nth_error ms j) as [m|]; [|discriminate]. unfold data_state. rewrite next_st.
    assert (st_at (S j) <> SInit) by (unfold st_at; destruct (Nat.ltb _ _); discriminate).
    destruct (m_occ m); try assumption; destruct (m_max m); try discriminate;
      destruct (Nat.ltb _ _); try assumption; discriminate.
  Qed.

  (** An item: the machine goes from place to place. *)
  Lemma item a i got more d h evs j s v more' h' :
    at_place a (i, got, more) d -> place_ok (i, got, more) ->
    nth_error ss j = Some s -> l_occ (s_lang s) h evs v more' h' ->
    (forall e rest h1, evs = e :: rest -> dh_event h e = Some h1 -> only_next ss h1 e (i, got, more) j) ->
    exists d', begun d h evs d' h' /\ at_place a (j, add_value j v got, more') d' /\
      place_ok (j, add_value j v got, more').
  Proof.
    intros AT PO ES OC ON.
    destruct (Forall2_nth_r _ _ _ _ _ OK ES) as (m & EM & MO).
    pose proof (nth_len _ _ _ EM) as LJ.
    pose proof MO as (_ & IM & _ & EX & _).
    destruct (IM (allow_any || m_any m)) as [OCC _].
    destruct (OCC h evs v more' h' OC) as ((e & rest & EE & T) & _ & art & BG & CP).
    (* the tag is handed to particle j *)
    assert (TAG : forall h1, dh_event h e = Some h1 ->
      i <= j /\ room s (length (nth j got [])) /\
      forall art0 ev x h2, member_start m (allow_any || m_any m) h1 e = Ok (DOut art0 ev x, h2) ->
        consumed blank ev -> art0 <> ANone ->
        de_next des d h1 e = Ok (DOut (ADes (after a got j art0)) ev x, h2)).
    { intros h1 E1. destruct (ON e rest h1 EE E1) as (NM & si & ESI & CASES).
      pose proof PO as (LI & LG & BD & LATE).
      assert (JR : i <= j /\ room s (length (nth j got [])) /\ resume (i, got, more) <= j /\
        forall k t, resume (i, got, more) <= k < j -> nth_error ss k = Some t ->
          ~ fits h1 e (l_first (s_lang t)) /\ enough t (length (nth k got [])) /\ room t (length (nth k got []))).
      { unfold resume. rewrite ESI. destruct CASES as [[-> RM]|(LT & EN & NR & BETW)].
        - rewrite ES in ESI. injection ESI as <-. pose proof RM as RM'. apply roomb_iff in RM'. rewrite RM'.
          split; [lia|]. split; [exact RM|]. split; [lia|]. intros k t K. lia.
        - split; [lia|]. split.
          { rewrite (LATE j LT). cbn. apply roomb_iff. rewrite EX. pose proof MO as (_ & _ & B & _).
            unfold roomb. destruct (m_max m); [reflexivity|]. apply Nat.ltb_lt. lia. }
          destruct (roomb (s_max si) (length (nth i got []))) eqn:RB.
          + split; [lia|]. intros k t K ET. destruct (Nat.eq_dec k i) as [->|NK].
            * rewrite ESI in ET. injection ET as <-. apply roomb_iff in RB. auto.
            * assert (K' : i < k) by lia.
              destruct (BETW k t) as [B1 B2]; [lia|exact ET|]. rewrite (LATE k K'). cbn.
              destruct (Forall2_nth_r _ _ _ _ _ OK ET) as (mk & _ & (_ & _ & B & EXK & _)).
              split; [exact B2|]. split; [exact B1|]. unfold room. rewrite EXK. destruct (m_max mk); [exact I|lia].
          + split; [lia|]. intros k t K ET.
              assert (K' : i < k) by lia.
              destruct (BETW k t) as [B1 B2]; [lia|exact ET|]. rewrite (LATE k K'). cbn.
              destruct (Forall2_nth_r _ _ _ _ _ OK ET) as (mk & _ & (_ & _ & B & EXK & _)).
              split; [exact B2|]. split; [exact B1|]. unfold room. rewrite EXK. destruct (m_max mk); [exact I|lia]. }
      destruct JR as (IJ & RJ & RS & SK). split; [exact IJ|]. split; [exact RJ|].
      intros art0 ev x h2 MS C N.
      destruct (ready a (i, got, more) d h1 e AT PO T NM) as (fields & fb & any & GT & FI & n & N1 & LP).
      cbn [fst snd] in GT, FI.
      assert (SD : exists F, seq_fuel ms = n + ((j - resume (i, got, more)) + S F)).
      { exists (seq_fuel ms - (n + (j - resume (i, got, more))) - 1). unfold seq_fuel. lia. }
      destruct SD as (F & SF).
      cbn [de_next seq_deser]. unfold seq_next. rewrite SF.
      assert (AD : sd_attrs d = a) by (destruct AT; reflexivity). rewrite AD, LP.
      destruct (skip_to (j - resume (i, got, more)) (S F) a fields fb h1 e any false None (resume (i, got, more)) j got)
        as (f2 & b2 & a2 & G2 & I2 & ->); try assumption; try reflexivity; try lia.
      unfold st_at. replace (Nat.ltb j (length ms)) with true by (symmetry; apply Nat.ltb_lt; lia).
      eapply accept; eauto. }
    assert (LG : length got = length ms) by (destruct PO as (_ & LG & _); exact LG).
    assert (PK : i <= j -> room s (length (nth j got [])) -> place_ok (j, add_value j v got, more')).
    { intros IJ RJ. destruct PO as (LI & _ & BD & LATE). split; [exact LJ|].
      split; [rewrite add_length; exact LG|]. split.
      - intros k t ET. destruct (Nat.eq_dec j k) as [<-|NK].
        + rewrite add_same by lia. rewrite ES in ET. injection ET as <-. unfold room in RJ.
          destruct (s_max s); [exact I|]. rewrite app_length. cbn. lia.
        + rewrite add_other by exact NK. exact (BD k t ET).
      - intros k K. rewrite add_other by lia. apply LATE. lia. }
    inversion BG as [h0 e0 h1 art0 ev x h2 E1 MS C N E2 E3|h0 e0 h1 d0 ev x h2 evs0 art0 h3 E1 MS C FD E2 E3]; subst.
    - injection E3 as <- <-. destruct (TAG h1 E1) as (IJ & RJ & GO).
      exists (after a got j art). split; [|split; [eapply after_place; eassumption|exact (PK IJ RJ)]].
      exists e0, [], h1, (after a got j art), ev, x, h'. split; [reflexivity|]. split; [exact E1|].
      split; [exact (GO _ _ _ _ MS C N)|]. split; [exact C|]. split; [exact (after_not_init _ _ _ _ N)|apply fed_nil].
    - injection E3 as <- <-. destruct (TAG h1 E1) as (IJ & RJ & GO).
      exists (after a got j art). split; [|split; [eapply after_place; eassumption|exact (PK IJ RJ)]].
      exists e0, evs0, h1, (after a got j (ADes d0)), ev, x, h2. split; [reflexivity|]. split; [exact E1|].
      split; [apply (GO _ _ _ _ MS C); discriminate|]. split; [exact C|]. split; [discriminate|].
      cbn [after]. eapply feed_inside; eassumption.
  Qed.

  Lemma unstarted i fields a h e : i < length ms -> ignorable blank e -> (exists s, nth_error ss i = Some s) ->
    forall fuel, exists ev any, loop (S fuel) a (fields, SAt i None, None, h) e false false None =
      Ok (DOut (ADes (SDes a fields (SAt i None))) ev any, h) /\ consumed blank ev.
  Proof.
    intros L IG (s & ES) fuel. destruct (ignorable_kind _ _ IG) as [T E].
    destruct (Forall2_nth_r _ _ _ _ _ OK ES) as (m & EM & MO). pose proof (kind_cases _ _ MO) as KC.
    cbn [seq_loop]. rewrite E, EM, T.
    replace (mkind_eqb (m_kind m) KindText) with false by (destruct KC as [-> | ->]; reflexivity). cbn [orb].
    destruct (mixed && is_chars e); eexists; eexists; (split; [reflexivity|]); [exact I|exact IG].
  Qed.

  Lemma done_next fields a h e fuel : ignorable blank e \/ is_tag e = true -> exists any,
    loop (S fuel) a (fields, SDone, None, h) e false false None =
      Ok (DOut (ADes (SDes a fields SDone)) (DContinue e) any, h).
  Proof.
    intros H. assert (is_end e = false) as E.
    { destruct H as [H|H]; [exact (proj2 (ignorable_kind _ _ H))|exact (tag_not_end _ H)]. }
    cbn [seq_loop]. rewrite E. destruct (has_any ms); eexists; reflexivity.
  Qed.

  (** Ignorable events. *)
  Lemma space a p d h e : at_place a p d -> place_ok p -> ignorable blank e ->
    exists d' ev any, de_next des d h e = Ok (DOut (ADes d') ev any, h) /\ consumed blank ev /\ at_place a p d'.
  Proof.
    intros AT PO IG. destruct (ignorable_kind _ _ IG) as [T E].
    cbn [de_next seq_deser]. unfold seq_next. assert (AD : sd_attrs d = a) by (destruct AT; reflexivity). rewrite AD.
    assert (FU : exists F, seq_fuel ms = S (S (S F))) by (exists (2 * length ms + 3); unfold seq_fuel; lia).
    destruct FU as (F & ->).
    destruct AT as [|i got more G d m s v EM ES L R EG DW|i got more m s EM ES].
    - exists (seq_new ms a). cbn [seq_new sd_fields sd_state].
      assert (L0 : 0 < length ms) by (destruct PO as (LI & _); exact LI).
      destruct (nth_error ms 0) as [m|] eqn:EM; [|apply nth_error_None in EM; lia].
      destruct (Forall2_nth _ _ _ _ _ OK EM) as (s & ES & MO). pose proof (kind_cases _ _ MO) as KC.
      replace (loop (S (S (S F))) a (no_fields ms, SInit, None, h) e false false None)
        with (loop (S (S F)) a (no_fields ms, SAt 0 None, Some SInit, h) e (allow_any || false) false None)
        by (cbn [seq_loop]; rewrite E; reflexivity).
      cbn [seq_loop]. rewrite E, EM, T.
      replace (mkind_eqb (m_kind m) KindText) with false by (destruct KC as [-> | ->]; reflexivity). cbn [orb].
      destruct (mixed && is_chars e); eexists; eexists; (split; [reflexivity|]); (split; [|apply at_init]); [exact I|exact IG].
    - cbn [sd_fields sd_state]. destruct DW as (inv & ID & DW). destruct (DW d ID) as (_ & _ & _ & SP).
      destruct (SP h e IG) as (d' & ev & any & NE & C & ID').
      exists (SDes a G (SAt i (Some d'))), ev, any. split; [|split; [exact C|]].
      + rewrite (continue_one _ a G h e false false None i m s d (ADes d') ev any h EM ES L R C); [reflexivity|discriminate|exact NE].
      + eapply at_run; eauto. exists inv. split; [exact ID'|exact DW].
    - cbn [sd_fields sd_state]. pose proof (nth_len _ _ _ EM) as LI.
      assert (REST : at_place a (i, got, more) (SDes a got (if roomb (s_max s) (length (nth i got [])) then SAt i None else st_at (S i))))
        by (eapply at_rest; eassumption).
      destruct (roomb (s_max s) (length (nth i got []))).
      + destruct (unstarted i got a h e LI IG (ex_intro _ s ES) (S (S F))) as (ev & any & -> & C).
        eexists; eexists; eexists. split; [reflexivity|]. split; [exact C|exact REST].
      + unfold st_at in *. destruct (Nat.ltb_spec (S i) (length ms)) as [LS|LS].
        * destruct (nth_error ms (S i)) as [m'|] eqn:EM'; [|apply nth_error_None in EM'; lia].
          destruct (Forall2_nth _ _ _ _ _ OK EM') as (s' & ES' & _).
          destruct (unstarted (S i) got a h e LS IG (ex_intro _ s' ES') (S (S F))) as (ev & any & -> & C).
          eexists; eexists; eexists. split; [reflexivity|]. split; [exact C|exact REST].
        * destruct (done_next got a h e (S (S F)) (or_introl IG)) as (any & ->).
          eexists; eexists; eexists. split; [reflexivity|]. split; [exact IG|exact REST].
  Qed.

  Lemma follow a p h evs p' h' : follows blank ss p h evs p' h' -> forall d, at_place a p d -> place_ok p ->
    exists d', fed blank des d h evs d' h' /\ at_place a p' d' /\ place_ok p'.
  Proof.
    induction 1 as [p h|p h e h1 evs p' h2 IG E1 F IH|i got more h evs j s v more' h1 rest p' h2 ES OC ON F IH]; intros d AT PO.
    - exists d. split; [apply fed_nil|]. split; assumption.
    - destruct (space a p d h1 e AT PO IG) as (d1 & ev & any & NE & C & AT1).
      destruct (IH d1 AT1 PO) as (d2 & F2 & AT2). exists d2. split; [|exact AT2].
      eapply fed_cons; eassumption.
    - destruct (item a i got more d h evs j s v more' h1 AT PO ES OC ON) as (d1 & F1 & AT1 & PO1).
      destruct (IH d1 AT1 PO1) as (d2 & F2 & AT2). exists d2. split; [|exact AT2].
      eapply fed_app; [apply begun_fed; eassumption|eassumption].
  Qed.

  (** ** The end *)
  Definition final (p : place) (vals : list (list V)) : Prop := place_ok p /\ settled_at ss p vals.

  Lemma final_fields i got more vals h : final (i, got, more) vals -> finish_fields ms got h = Ok (vals, h).
  Proof.
    intros ((_ & _ & BD & _) & LG & LV & ST). apply (finish_fields_ok blank ms ss); try assumption.
    intros k s E. split; [exact (ST k s E)|exact (BD k s E)].
  Qed.

  Lemma final_enough i got more vals k s : final (i, got, more) vals -> nth_error ss k = Some s ->
    enough s (length (nth k got [])).
  Proof.
    intros (_ & _ & _ & ST) E. destruct (ST k s E) as [[L _]|(v & D0 & _)]; [left; exact L|right; congruence].
  Qed.

  Lemma no_fields_slots : no_fields ms = map (fun _ => @nil V) ss.
  Proof.
    unfold no_fields. pose proof (Forall2_len _ _ _ OK) as E. revert E. clear. revert ss.
    induction ms as [|x l IH]; intros [|y l'] E; try discriminate E; cbn; [reflexivity|]. f_equal. apply IH. cbn in E. lia.
  Qed.

  Lemma finish_place a p d vals h : at_place a p d -> final p vals -> seq_finish ms d h = Ok ((a, vals), h).
  Proof.
    intros AT FN. unfold seq_finish. destruct AT as [|i got more G d m s v EM ES L R EG DW|i got more m s EM ES].
    - cbn [seq_new sd_fields sd_state seq_finish_state obind sd_attrs]. rewrite no_fields_slots.
      rewrite (final_fields _ _ _ _ h FN). reflexivity.
    - cbn [sd_fields sd_state seq_finish_state sd_attrs]. rewrite EM. destruct DW as (inv & ID & DW).
      destruct (DW d ID) as (FIN & _). rewrite FIN. cbn [obind]. rewrite (stored _ _ _ _ v EM ES L R). cbn [obind].
      rewrite <- EG, (final_fields _ _ _ _ h FN). reflexivity.
    - cbn [sd_fields sd_state sd_attrs]. replace (seq_finish_state ms got _ h) with (Ok (E:=kind) (got, h)).
      + cbn [obind]. rewrite (final_fields _ _ _ _ h FN). reflexivity.
      + unfold st_at. destruct (roomb _ _); [reflexivity|]. destruct (Nat.ltb _ _); reflexivity.
  Qed.

  Lemma end_at_rest fuel a got vals st h n : (match st with SAt _ (Some _) | SUnknown => False | _ => True end) ->
    (forall h, finish_fields ms got h = Ok (vals, h)) ->
    loop (S fuel) a (got, st, None, h) (EEnd n) false false None =
      Ok (DOut (AData (a, vals)) (if elem then DNone else DContinue (EEnd n)) false, h).
  Proof.
    intros NS FF. cbn [seq_loop is_end seq_flush]. destruct st as [|i [d|]| |]; try (elim NS; fail);
      cbn [obind]; rewrite FF; reflexivity.
  Qed.

  Lemma end_place a p d vals h n : at_place a p d -> final p vals ->
    exists any, de_next des d h (EEnd n) =
      Ok (DOut (AData (a, vals)) (if elem then DNone else DContinue (EEnd n)) any, h).
  Proof.
    intros AT FN. cbn [de_next seq_deser]. unfold seq_next.
    assert (AD : sd_attrs d = a) by (destruct AT; reflexivity). rewrite AD.
    assert (FU : exists F, seq_fuel ms = S (S F)) by (exists (2 * length ms + 4); unfold seq_fuel; lia).
    destruct FU as (F & ->). exists false.
    destruct AT as [|i got more G d m s v EM ES L R EG DW|i got more m s EM ES].
    - cbn [seq_new sd_fields sd_state]. apply end_at_rest; [exact I|]. rewrite no_fields_slots. intros h0. exact (final_fields _ _ _ _ h0 FN).
    - cbn [sd_fields sd_state]. destruct DW as (inv & ID & DW). destruct (DW d ID) as (_ & EN & _).
      destruct (EN h n) as (x & NE). cbn [seq_loop]. rewrite EM, NE. cbn [obind]. unfold seq_handle.
      cbn [o_art o_ev o_any seq_flush obind]. rewrite (stored _ _ _ _ v EM ES L R). cbn [obind from_event is_tag is_end orb].
      rewrite <- EG. pose proof (nth_len _ _ _ EM) as LI.
      rewrite (data_state_room i m s); [|exact EM|exact ES|unfold field_at; rewrite EG, add_same by lia; rewrite app_length; cbn; lia].
      pose proof (fun h0 => final_fields _ _ _ _ h0 FN) as FF.
      unfold st_at. destruct (roomb _ _); [|destruct (Nat.ltb _ _)]; cbn [seq_loop is_end seq_flush obind]; rewrite FF; reflexivity.
    - cbn [sd_fields sd_state]. apply end_at_rest; [|intros h0; exact (final_fields _ _ _ _ h0 FN)].
      unfold st_at. destruct (roomb _ _); [exact I|]. destruct (Nat.ltb _ _); exact I.
  Qed.

  Lemma refuse_place a p d vals h e : at_place a p d -> final p vals -> is_tag e = true ->
    ~ fits h e (still_next ss p) ->
    exists d' any, de_next des d h e = Ok (DOut (ADes d') (DContinue e) any, h) /\
      forall h, seq_finish ms d' h = Ok ((a, vals), h).
  Proof.
    intros AT FN T NS. destruct p as [[i got] more].
    assert (NM : ~ fits h e more).
    { intros (l & Hl & Hc). apply NS. exists l. split; [left; exact Hl|exact Hc]. }
    pose proof FN as (PO & ST).
    destruct (ready a (i, got, more) d h e AT PO T NM) as (fields & fb & any & GT & FI & n & N1 & LP).
    cbn [fst snd] in GT, FI.
    assert (RL : resume (i, got, more) <= length ms).
    { unfold resume. destruct PO as (LI & _). destruct (nth_error ss i); [|lia]. destruct (roomb _ _); lia. }
    assert (SD : exists F, seq_fuel ms = n + ((length ms - resume (i, got, more)) + S F)).
    { exists (seq_fuel ms - (n + (length ms - resume (i, got, more))) - 1). unfold seq_fuel. lia. }
    destruct SD as (F & SF).
    cbn [de_next seq_deser]. unfold seq_next. rewrite SF.
    assert (AD : sd_attrs d = a) by (destruct AT; reflexivity). rewrite AD, LP.
    destruct (skip_to (length ms - resume (i, got, more)) (S F) a fields fb h e any false None (resume (i, got, more)) (length ms) got)
      as (f2 & b2 & a2 & G2 & I2 & ->); try assumption; try reflexivity; try lia.
    { intros k s K ES. split; [|split].
      - intros (l & Hl & Hc). apply NS. exists l. split; [|exact Hc]. unfold resume in K.
        destruct (nth_error ss i) as [si|] eqn:ESI.
        + destruct (roomb (s_max si) (length (nth i got []))) eqn:RB.
          * destruct (Nat.eq_dec k i) as [->|NK].
            -- right; left. rewrite ESI in ES. injection ES as <-. exists si. split; [exact ESI|]. split; [apply roomb_iff; exact RB|exact Hl].
            -- right; right. exists k, s. split; [lia|]. split; [exact ES|exact Hl].
          * right; right. exists k, s. split; [lia|]. split; [exact ES|exact Hl].
        + apply nth_error_None in ESI. destruct PO as (LI & _). rewrite (Forall2_len _ _ _ OK) in LI. lia.
      - exact (final_enough _ _ _ _ k s FN ES).
      - unfold resume in K. destruct (nth_error ss i) as [si|] eqn:ESI.
        + destruct (Nat.eq_dec k i) as [->|NK].
          * rewrite ESI in ES. injection ES as <-. apply roomb_iff. destruct (roomb (s_max si) (length (nth i got []))); [reflexivity|lia].
          * destruct PO as (LI & LG & BD & LATE).
            assert (i < k) as IK by (destruct (roomb (s_max si) (length (nth i got []))); lia).
            rewrite (LATE k IK). cbn. destruct (Forall2_nth_r _ _ _ _ _ OK ES) as (mk & _ & (_ & _ & B & EXK & _)).
            unfold room. rewrite EXK. destruct (m_max mk); [exact I|lia].
        + apply nth_error_None in ESI. destruct PO as (LI & _). rewrite (Forall2_len _ _ _ OK) in LI. lia. }
    unfold st_at. rewrite Nat.ltb_irrefl. cbn [seq_loop]. rewrite (tag_not_end _ T).
    exists (SDes a f2 (match b2 with Some f => f | None => SDone end)). eexists. split.
    - destruct (has_any ms); reflexivity.
    - intros h0. unfold seq_finish. cbn [sd_fields sd_state sd_attrs].
      assert (E : seq_finish_state ms f2 (match b2 with Some f => f | None => SDone end) h0 = Ok (got, h0)).
      { specialize (G2 h0). destruct b2; [exact G2|]. cbn in G2 |- *. exact G2. }
      rewrite E. cbn [obind]. rewrite (final_fields _ _ _ _ h0 FN). reflexivity.
  Qed.

  (** ** The theorems *)
  Lemma done_place a p d vals : elem = false -> at_place a p d -> final p vals ->
    done_with blank des (a, vals) (still_next ss p) d.
  Proof.
    intros EL AT FN. exists (at_place a p). split; [exact AT|]. intros d0 AT0. split; [|split; [|split]].
    - intros h. exact (finish_place a p d0 vals h AT0 FN).
    - intros h n. destruct (end_place a p d0 vals h n AT0 FN) as (any & E). replace (if elem then DNone else DContinue (EEnd n)) with (DContinue (EEnd n)) in E by (rewrite EL; reflexivity). exists any. exact E.
    - intros h e T NS. destruct (refuse_place a p d0 vals h e AT0 FN T NS) as (d' & any & E & FI).
      exists (ADes d'), any. split; [exact E|]. right. exists d'. split; [reflexivity|exact FI].
    - intros h e IG. exact (space a p d0 h e AT0 (proj1 FN) IG).
  Qed.


  (** ** Before anything was read *)
  Lemma space_init a h e : 0 < length ms -> ignorable blank e ->
    exists ev any, de_next des (seq_new ms a) h e = Ok (DOut (ADes (seq_new ms a)) ev any, h) /\ consumed blank ev.
  Proof.
    intros L0 IG. destruct (ignorable_kind _ _ IG) as [T E].
    cbn [de_next seq_deser]. unfold seq_next.
    assert (FU : exists F, seq_fuel ms = S (S (S F))) by (exists (2 * length ms + 3); unfold seq_fuel; lia).
    destruct FU as (F & ->). cbn [seq_new sd_fields sd_state sd_attrs].
    destruct (nth_error ms 0) as [m|] eqn:EM; [|apply nth_error_None in EM; lia].
    destruct (Forall2_nth _ _ _ _ _ OK EM) as (s & ES & MO). pose proof (kind_cases _ _ MO) as KC.
    replace (loop (S (S (S F))) a (no_fields ms, SInit, None, h) e false false None)
      with (loop (S (S F)) a (no_fields ms, SAt 0 None, Some SInit, h) e (allow_any || false) false None)
      by (cbn [seq_loop]; rewrite E; reflexivity).
    cbn [seq_loop]. rewrite E, EM, T.
    replace (mkind_eqb (m_kind m) KindText) with false by (destruct KC as [-> | ->]; reflexivity). cbn [orb].
    destruct (mixed && is_chars e); eexists; eexists; (split; [reflexivity|]); [exact I|exact IG].
  Qed.

  Lemma refuse_from a h e : is_tag e = true -> ~ fits h e (first_of ss) ->
    forall n k fuel any, n = length ms - k -> k <= length ms ->
      exists any', loop (n + S fuel) a (no_fields ms, st_at k, Some SInit, h) e any false None =
        Ok (DOut (ADes (seq_new ms a)) (DContinue e) any', h).
  Proof.
    intros T NF. induction n as [|n IH]; intros k fuel any EN B.
    - assert (k = length ms) as -> by lia. unfold st_at. rewrite Nat.ltb_irrefl. cbn [Nat.add seq_loop].
      rewrite (tag_not_end _ T). destruct (has_any ms); eexists; reflexivity.
    - assert (LK : k < length ms) by lia.
      destruct (nth_error ms k) as [m|] eqn:EM; [|apply nth_error_None in EM; lia].
      destruct (Forall2_nth _ _ _ _ _ OK EM) as (s & ES & MO).
      unfold st_at. replace (Nat.ltb k (length ms)) with true by (symmetry; apply Nat.ltb_lt; lia).
      pose proof (kind_cases _ _ MO) as KC. pose proof MO as (_ & IM & _).
      destruct (IM (allow_any || m_any m)) as [_ RF].
      destruct (RF h e T) as (x & RE).
      { intros (l & Hl & Hc). apply NF. exists l. split; [|exact Hc]. exists s. split; [|exact Hl]. eapply nth_error_In; exact ES. }
      change (S n + S fuel) with (S (n + S fuel)). cbn [seq_loop]. rewrite (tag_not_end _ T), EM, T.
      replace (mkind_eqb (m_kind m) KindText) with false by (destruct KC as [-> | ->]; reflexivity).
      replace (mkind_eqb (m_kind m) KindAny) with false by (destruct KC as [-> | ->]; reflexivity).
      cbn [orb andb]. rewrite (seq_start_ok _ KC), RE. cbn [obind]. unfold seq_handle. cbn [o_art o_ev o_any].
      assert (ON : exists any' : bool,
        (let* (ho, hs') := Ok (from_event (DContinue e) x, (no_fields ms, next_state ms k, Some SInit, h)) in
         match ho with
         | HContinue e' y => loop (n + S fuel) a hs' e' (any || y) false None
         | HBreak de y => seq_end a hs' de y
         end) = Ok (DOut (ADes (seq_new ms a)) (DContinue e) any', h)).
      { cbn [obind]. rewrite (from_event_tag _ _ T), next_st. apply IH; lia. }
      unfold seq_none. destruct (m_min m) as [|mn]; [exact ON|].
      destruct (occ_cases _ _ _ MO) as [(-> & _)|[(-> & _)|[(-> & _)|(q & -> & _)]]]; try exact ON;
        destruct (m_default m); try exact ON; cbn [get_or_insert obind]; exists x; reflexivity.
  Qed.

  Lemma refuse_init a h e : 0 < length ms -> is_tag e = true -> ~ fits h e (first_of ss) ->
    exists any, de_next des (seq_new ms a) h e = Ok (DOut (ADes (seq_new ms a)) (DContinue e) any, h).
  Proof.
    intros L0 T NF. cbn [de_next seq_deser]. unfold seq_next. cbn [seq_new sd_fields sd_state sd_attrs].
    assert (FU : seq_fuel ms = S ((length ms - 0) + S (length ms + 4))) by (unfold seq_fuel; lia). rewrite FU.
    destruct (refuse_from a h e T NF (length ms - 0) 0 (length ms + 4) (allow_any || false) eq_refl) as (any & E); [lia|].
    exists any. cbn [seq_loop]. rewrite (tag_not_end _ T). cbn [get_or_insert].
    unfold st_at in E. replace (Nat.ltb 0 (length ms)) with true in E by (symmetry; apply Nat.ltb_lt; lia). exact E.
  Qed.

  Lemma follows_tag p h evs p' h' : follows blank ss p h evs p' h' -> begins_with_tag evs ->
    exists i got more evs1 rest j s v more' h1, p = (i, got, more) /\ evs = evs1 ++ rest /\
      nth_error ss j = Some s /\ l_occ (s_lang s) h evs1 v more' h1 /\
      (forall e evs' h0, evs1 = e :: evs' -> dh_event h e = Some h0 -> only_next ss h0 e (i, got, more) j) /\
      follows blank ss (j, add_value j v got, more') h1 rest p' h'.
  Proof.
    intros F (e & r & E & T). destruct F as [p h|p h e0 h1 evs p' h2 IG E1 F|i got more h evs j s v more' h1 rest p' h2 ES OC ON F].
    - discriminate E.
    - injection E as -> ->. destruct (ignorable_kind _ _ IG) as [TT _]. congruence.
    - exists i, got, more, evs, rest, j, s, v, more', h1. auto 10.
  Qed.

  Theorem sequence_group : elem = false -> ms <> [] ->
    implements blank des (seq_init_group elem no_attrs allow_any mixed ms) (sequence_lang blank no_attrs ss).
  Proof.
    intros EL NE. assert (L0 : 0 < length ms) by (destruct ms; [elim NE; reflexivity|cbn; lia]).
    split.
    - intros h evs v more h' (BT & p & F & -> & EA & ST).
      destruct (follows_tag _ _ _ _ _ F BT) as (i & got & more0 & evs1 & rest & j & s & v1 & more1 & h1 & EP & EE & ES & OC & ON & F1).
      destruct (item no_attrs i got more0 (seq_new ms no_attrs) h evs1 j s v1 more1 h1) as (d1 & BG & AT1 & PO1); try assumption.
      { rewrite <- EP. apply at_init. } { rewrite <- EP. apply first_ok. exact L0. }
      destruct (follow no_attrs _ _ _ _ _ F1 d1 AT1 PO1) as (d2 & F2 & AT2 & PO2).
      split; [exact BT|]. split.
      { intros e r h0 E D0. destruct (Forall2_nth_r _ _ _ _ _ OK ES) as (m & EM & (_ & IM & _)).
        destruct (IM true) as [OCC _]. destruct (OCC _ _ _ _ _ OC) as ((e' & r' & E' & T') & FT & _).
        subst evs. rewrite E' in E. cbn in E. injection E as -> _.
        destruct (FT e r' h0 E' D0) as (l & Hl & Hc). exists l. split; [|exact Hc]. exists s.
        split; [eapply nth_error_In; exact ES|exact Hl]. }
      exists (ADes d2). split.
      + destruct BG as (e & r & h0 & d0 & ev & any & h2 & E & D0 & NX & C & NI & FD).
        assert (IN : seq_init_group elem no_attrs allow_any mixed ms h0 e = Ok (DOut (ADes d0) ev any, h2)).
        { unfold seq_init_group. cbn [de_next seq_deser] in NX. rewrite NX. cbn [obind o_art o_ev o_any].
          destruct (sd_state d0); try reflexivity. elim NI; reflexivity. }
        assert (FA : fed blank des d0 h2 (r ++ rest) d2 h') by (eapply fed_app; eassumption). rewrite EE, E. cbn [app].
        destruct (r ++ rest) as [|e2 r2] eqn:ER.
        * inversion FA; subst. eapply begins_one; [exact D0|exact IN|exact C|discriminate].
        * eapply begins_more; [exact D0|exact IN|exact C|]. apply fed_feeds; [exact FA|discriminate].
      + right. exists d2. split; [reflexivity|]. destruct v as [va vals]. cbn [fst snd] in *. subst va.
        apply done_place; [exact EL|exact AT2|]. split; assumption.
    - intros h e T NF. destruct (refuse_init no_attrs h e L0 T NF) as (any & E). exists any.
      unfold seq_init_group. cbn [de_next seq_deser] in E. rewrite E. reflexivity.
  Qed.

  Theorem sequence_ignores : ms <> [] -> ignores blank (seq_init_group elem no_attrs allow_any mixed ms).
  Proof.
    intros NE h e IG. assert (L0 : 0 < length ms) by (destruct ms; [elim NE; reflexivity|cbn; lia]).
    destruct (space_init no_attrs h e L0 IG) as (ev & any & E & C). exists ev, any. split; [|exact C].
    unfold seq_init_group. cbn [de_next seq_deser] in E. rewrite E. reflexivity.
  Qed.

  Theorem sequence_element h evs v h' : elem = true -> ms <> [] ->
    element_of from_start (fun a h evs v h' => exists p, follows blank ss (first_place ss) h evs p h' /\
        fst v = a /\ settled_at ss p (snd v)) h evs v h' ->
    reads_element blank des h evs v h'.
  Proof.
    intros EL NE H. assert (L0 : 0 < length ms) by (destruct ms; [elim NE; reflexivity|cbn; lia]).
    unfold reads_element. assert (DI : de_init des = seq_init_element from_start ms) by (cbn [de_init seq_deser]; rewrite EL; reflexivity).
    rewrite DI.
    destruct H as [(n & attrs & h0 & a & h1 & body & n' & h2 & -> & E0 & FS & (p & F & EA & ST) & E3)|
                   (n & attrs & h0 & a & h1 & -> & E0 & FS & (p & F & EA & ST))]; destruct v as [va vals]; cbn [fst snd] in *; subst va.
    - destruct (follow a _ _ _ _ _ F (seq_new ms a) (at_init a) (first_ok L0)) as (d2 & F2 & AT2 & PO2).
      eapply begins_more; [exact E0|cbn [seq_init_element]; rewrite FS; reflexivity|exact I|].
      destruct (end_place a p d2 vals h' n' AT2 (conj PO2 ST)) as (any & E).
      eapply fed_then; [exact F2|exact E3|exact E| |discriminate].
      cbn. rewrite EL. exact I.
    - assert (EP : p = first_place ss /\ h1 = h').
      { clear - F OK. remember (@nil event) as evs eqn:EV. revert EV.
        destruct F as [p h|p h e0 h2 evs p' h3 IG E1 F|i got more h evs j s v more' h2 rest p' h3 ES OC ON F]; intros EV; [auto|discriminate|].
        destruct (Forall2_nth_r _ _ _ _ _ OK ES) as (m & _ & (_ & IM & _)).
        destruct (proj1 (IM true) _ _ _ _ _ OC) as ((e & r & E & _) & _). rewrite E in EV. discriminate EV. }
      destruct EP as [-> ->].
      eapply (begins_one blank des _ h (EEmpty n attrs) h0 (AData (a, vals)) DNone false h');
        [exact E0| |exact I|discriminate].
      cbn [seq_init_element]. rewrite FS. cbn [obind].
      rewrite (finish_place a _ _ vals h' (at_init a) (conj (first_ok L0) ST)). reflexivity.
  Qed.
End Sequence.
