(** Proofs about the generated deserializers: choices. *)
From Verif Require Import GenModel GenSpec GenProofs.
From Coq Require Import Lia.
Local Open Scope list_scope.

Lemma seen_ignored blank e : ignorable blank e -> (is_tag e || is_end e) = false.
Proof. intros H. destruct (ignorable_kind _ _ H) as [-> ->]. reflexivity. Qed.

Lemma ends_app evs1 rest : ends_with_tag (evs1 ++ rest) -> rest = [] \/ ends_with_tag rest.
Proof.
  intros (evs0 & e & E & T). destruct rest as [|r rest] using rev_ind; [left; reflexivity|right].
  exists rest, r. split; [reflexivity|]. rewrite app_assoc in E. apply app_inj_tail in E as [_ ->]. exact T.
Qed.

Lemma ends_not_spaces blank evs : ends_with_tag evs -> Forall (ignorable blank) evs -> False.
Proof.
  intros (evs0 & e & -> & T) F. apply Forall_app in F as [_ F]. inversion F; subst.
  rewrite (seen_ignored _ _ H1) in T. discriminate T.
Qed.

Lemma fed_none blank {V D} (des : deser V D) d h d' h' : fed blank des d h [] d' h' -> d = d' /\ h = h'.
Proof. inversion 1. auto. Qed.

Lemma spaces_none blank h h' : spaces blank h [] h' -> h = h'.
Proof. inversion 1. reflexivity. Qed.

Section Choice.
  Variable blank : bytes -> option bool.
  Context {V D A : Type}.
  Variable from_start : dhelper -> bytes -> list attr -> outcome kind (A * dhelper).
  Variables (elem allow_any mixed defaultable : bool).
  Variable ms : list (member V D).
  Variable ss : list (slot V).
  Hypothesis OK : Forall2 (member_ok blank) ms ss.

  Notation estate := (estate (V:=V) (D:=D)).
  Notation loop := (enum_loop elem allow_any mixed defaultable ms).
  Notation des := (enum_deser from_start elem allow_any mixed defaultable ms).
  Notation finish_state := (enum_finish_state defaultable ms).

  Section Variant.
    Variables (i : nat) (m : member V D) (s : slot V).
    Hypothesis EM : nth_error ms i = Some m.
    Hypothesis ES : nth_error ss i = Some s.
    Hypothesis MO : member_ok blank m s.

    Definition leaves (n : nat) : bool := negb elem && negb (roomb (s_max s) n).

    Definition var_after (vals : list V) (art : artifact V D) : artifact (nat * list V) estate :=
      match art with
      | ANone => ANone
      | AData v =>
          if leaves (length (vals ++ [v])) then AData (i, vals ++ [v])
          else ADes (EAt i (vals ++ [v]) None None)
      | ADes d => ADes (EAt i vals None (Some d))
      end.

    Lemma room_max vals (v : V) : room s (length vals) ->
      match s_max s with Bounded n => length (vals ++ [v]) <= n | Unbounded => True end.
    Proof. unfold room. destruct (s_max s); [auto|]. rewrite app_length. cbn. lia. Qed.

    Lemma full_min vals (v : V) : room s (length vals) -> roomb (s_max s) (length (vals ++ [v])) = false ->
      s_min s <= length (vals ++ [v]).
    Proof.
      intros R F. pose proof MO as (_ & _ & B & EX & SM & _).
      pose proof (room_max vals v R) as L. unfold roomb in F. destruct (s_max s) as [|n] eqn:EN; [discriminate F|].
      apply Nat.ltb_ge in F. rewrite <- EX in B. destruct B as [B1 B2]. rewrite SM. destruct (m_occ m); lia.
    Qed.

    Lemma full_settled vals (v : V) : room s (length vals) -> roomb (s_max s) (length (vals ++ [v])) = false ->
      settled s (vals ++ [v]) (vals ++ [v]).
    Proof. intros R F. left. split; [apply full_min; assumption|reflexivity]. Qed.

    Lemma finish_var vals vs h : settled s vals vs ->
      match s_max s with Bounded n => length vals <= n | Unbounded => True end ->
      finish_state (EAt i vals None None) h = Ok ((i, vs), h).
    Proof.
      intros ST B. cbn [enum_finish_state obind]. rewrite EM. cbn [obind].
      rewrite (finish_field_ok _ _ _ _ _ h MO ST B). reflexivity.
    Qed.

    Lemma multi_or (vals : list V) : room s (length vals) ->
      ((m_occ m = OSingle \/ m_occ m = OOptional) /\ vals = [] /\ s_max s = Bounded 1) \/
      match m_occ m with ODynamic | OStatic _ => True | _ => False end.
    Proof.
      intros R. unfold room in R. pose proof MO as (_ & _ & _ & EX & _). rewrite EX in *.
      destruct (occ_cases _ _ _ MO) as [(-> & _ & E & _)|[(-> & E & _)|[(-> & _)|(n & -> & _)]]];
        try (right; exact I); left; rewrite E in R; destruct vals; cbn in R; try lia; auto.
    Qed.

    (** What the handler does with a value. *)
    Lemma handle_data vals v ev any h : room s (length vals) ->
      enum_handle elem defaultable ms i m vals None (DOut (AData v) ev any) h =
      if leaves (length (vals ++ [v])) then Ok (HBreak ev any, EFin (i, vals ++ [v]), h)
      else Ok (from_event ev any, EAt i (vals ++ [v]) None None, h).
    Proof.
      intros R. unfold enum_handle. cbn [o_art o_ev o_any obind]. rewrite (store_ok _ _ _ _ _ MO R). cbn [obind].
      pose proof MO as (_ & _ & _ & EX & _). unfold leaves.
      destruct elem; [reflexivity|]. cbn [negb andb].
      assert (LV : roomb (s_max s) (length (vals ++ [v])) = false ->
        (let* (t, h2) := finish_state (EAt i (vals ++ [v]) None None) h in Ok (HBreak ev any, EFin (D:=D) t, h2)) =
        Ok (HBreak ev any, EFin (i, vals ++ [v]), h)).
      { intros F. rewrite (finish_var _ (vals ++ [v]) h (full_settled _ _ R F) (room_max _ _ R)). reflexivity. }
      destruct (multi_or vals R) as [([EO|EO] & -> & EM1)|MU].
      - rewrite EO. rewrite EM1 in *. cbn [app length roomb Nat.ltb Nat.leb] in *. rewrite (LV eq_refl). reflexivity.
      - rewrite EO. rewrite EM1 in *. cbn [app length roomb Nat.ltb Nat.leb] in *. rewrite (LV eq_refl). reflexivity.
      - rewrite EX in *. unfold roomb in *. destruct (m_occ m); try (elim MU; fail);
          (destruct (m_max m) as [|mx]; [reflexivity|]; destruct (Nat.ltb (length (vals ++ [v])) mx); [reflexivity|];
           cbn [negb]; apply LV; reflexivity).
    Qed.

    (** What the handler does with an unfinished deserializer. *)
    Lemma handle_des vals d ev any h : room s (length vals) ->
      enum_handle elem defaultable ms i m vals None (DOut (ADes d) ev any) h =
      let more := roomb (s_max s) (S (length vals)) in
      let ret := if more then from_event ev any else break_or_end elem ev any in
      Ok (ret, if more && is_continue_tag ret then EAt i vals (Some d) None else EAt i vals None (Some d), h).
    Proof.
      intros R. unfold enum_handle. cbn [o_art o_ev o_any obind].
      pose proof MO as (_ & _ & B & EX & _).
      destruct (multi_or vals R) as [([EO|EO] & -> & EM1)|MU].
      - rewrite EO, EM1. reflexivity.
      - rewrite EO, EM1. reflexivity.
      - rewrite EX in *. unfold roomb in *.
        replace (match m_max m with Unbounded => true | Bounded max => Nat.ltb (length vals) (max - 1) end)
          with (match m_max m with Unbounded => true | Bounded max => Nat.ltb (S (length vals)) max end).
        + destruct (m_occ m); try (elim MU; fail); destruct (m_max m); reflexivity.
        + destruct (m_max m) as [|n]; [reflexivity|].
          destruct (Nat.ltb_spec (S (length vals)) n), (Nat.ltb_spec (length vals) (n - 1)); try reflexivity; lia.
    Qed.

    Lemma handled_e vals art ev any h : room s (length vals) -> consumed blank ev -> art <> ANone ->
      exists st, enum_handle elem defaultable ms i m vals None (DOut art ev any) h = Ok (HBreak ev any, st, h) /\
        st <> EInit /\ enum_end st h ev any = Ok (DOut (var_after vals art) ev any, h).
    Proof.
      intros R C N. destruct art as [|v|d]; [elim N; reflexivity| |].
      - rewrite (handle_data _ _ _ _ _ R). rewrite (consumed_from _ _ any C). cbn [var_after].
        destruct (leaves (length (vals ++ [v]))); eexists; (split; [reflexivity|]); (split; [discriminate|]); reflexivity.
      - rewrite (handle_des _ _ _ _ _ R). cbv zeta. rewrite (consumed_from _ _ any C).
        assert (break_or_end elem ev any = HBreak ev any) as ->.
        { unfold break_or_end. destruct elem; [apply (consumed_from_end _ _ any C)|reflexivity]. }
        replace (if roomb (s_max s) (S (length vals)) then HBreak ev any else HBreak ev any) with (HBreak ev any)
          by (destruct (roomb _ _); reflexivity).
        rewrite Bool.andb_comm. cbn [is_continue_tag andb]. eexists; (split; [reflexivity|]); (split; [discriminate|]); reflexivity.
    Qed.

    Lemma kinds : m_kind m = KindElement \/ m_kind m = KindGroup.
    Proof. exact (kind_cases blank m s MO). Qed.

    Lemma next_run fuel vals d h e art ev any h' : room s (length vals) -> consumed blank ev -> art <> ANone ->
      de_next (m_deser m) d h e = Ok (DOut art ev any, h') ->
      loop (S fuel) (EAt i vals None (Some d)) h e = Ok (DOut (var_after vals art) ev any, h').
    Proof.
      intros R C N E. cbn [enum_loop]. rewrite EM, E. cbn [obind].
      destruct (handled_e vals art ev any h' R C N) as (st & -> & _ & EE). cbn [obind]. exact EE.
    Qed.

    Lemma next_start fuel vals h e art ev any h' : room s (length vals) -> consumed blank ev -> art <> ANone ->
      is_tag e = true -> member_start m (m_any m) h e = Ok (DOut art ev any, h') ->
      loop (S fuel) (EAt i vals None None) h e = Ok (DOut (var_after vals art) ev any, h').
    Proof.
      intros R C N T E. cbn [enum_loop]. rewrite (tag_not_end _ T), T, EM.
      match goal with |- context [obind ?x _] => replace x with (member_start m (m_any m) h e) by (unfold member_start; destruct (m_kind m); reflexivity) end.
      rewrite E. cbn [obind]. destruct (handled_e vals art ev any h' R C N) as (st & -> & _ & EE). cbn [obind]. exact EE.
    Qed.

    Lemma feed_var vals d h evs art h' : room s (length vals) ->
      feeds blank (m_deser m) d h evs art h' ->
      feeds blank des (EAt i vals None (Some d)) h evs (var_after vals art) h'.
    Proof.
      intros R F. induction F as [d h e h1 art ev any h2 E1 E2 C N|d h e h1 d' ev any h2 evs art h3 E1 E2 C F IH].
      - eapply feeds_last; [exact E1| |exact C|].
        + cbn [de_next enum_deser]. unfold enum_next, enum_fuel. eapply next_run; eassumption.
        + destruct art; [elim N; reflexivity| |discriminate]. cbn [var_after]. destruct (leaves _); discriminate.
      - eapply feeds_step; [exact E1| |exact C|exact IH].
        cbn [de_next enum_deser]. unfold enum_next, enum_fuel.
        apply (next_run _ vals d h1 e (ADes d') ev any h2 R C); [discriminate|exact E2].
    Qed.

    (** Where the machine is. *)
    Inductive at_var : list V -> labels -> estate -> Prop :=
    | av_run vals v more d : room s (length vals) -> done_with blank (m_deser m) v more d ->
        at_var (vals ++ [v]) more (EAt i vals None (Some d))
    | av_rest got more : got <> [] -> match s_max s with Bounded n => length got <= n | Unbounded => True end ->
        leaves (length got) = false -> at_var got more (EAt i got None None).

    Definition at_art (got : list V) (more : labels) (art : artifact (nat * list V) estate) : Prop :=
      (exists st, art = ADes st /\ at_var got more st) \/
      (art = AData (i, got) /\ leaves (length got) = true).

    Lemma after_var vals art v more : room s (length vals) -> complete blank (m_deser m) v more art ->
      at_art (vals ++ [v]) more (var_after vals art).
    Proof.
      intros R [->|(d & -> & DW)].
      - cbn [var_after]. destruct (leaves (length (vals ++ [v]))) eqn:L; [right; auto|left].
        eexists; split; [reflexivity|]. apply av_rest; [destruct vals; discriminate|apply room_max; exact R|exact L].
      - left. eexists; split; [reflexivity|]. apply av_run; assumption.
    Qed.

    (** A tag the last occurrence does not want reaches the particle again. *)
    Lemma refused_run fuel got more st h e : at_var got more st -> is_tag e = true -> ~ fits h e more ->
      room s (length got) ->
      exists vals fb, loop (S fuel) st h e =
        (if match st with EAt _ _ _ (Some _) => true | _ => false end then loop fuel (EAt i vals fb None) h e
         else loop (S fuel) (EAt i vals fb None) h e) /\
        match fb with
        | None => vals = got
        | Some d => exists v, got = vals ++ [v] /\ room s (length vals) /\ forall h, de_finish (m_deser m) d h = Ok (v, h)
        end.
    Proof.
      intros AT T NF RM. destruct AT as [vals v more d R DW|got more NE B L].
      - destruct DW as (inv & ID & DW). destruct (DW d ID) as (_ & _ & RF & _).
        destruct (RF h e T NF) as (art & x & NX & CASES).
        rewrite app_length, Nat.add_comm in RM. cbn [length Nat.add] in RM.
        assert (RB : roomb (s_max s) (S (length vals)) = true) by (apply roomb_iff; exact RM).
        destruct CASES as [->|(d' & -> & FI)].
        + exists (vals ++ [v]), None. split; [|reflexivity]. cbn [enum_loop]. rewrite EM, NX. cbn [obind].
          rewrite (handle_data _ _ _ _ _ R). unfold leaves. rewrite app_length, Nat.add_comm. cbn [length Nat.add]. rewrite RB.
          rewrite Bool.andb_comm. cbn [negb andb obind]. rewrite (from_event_tag _ _ T). reflexivity.
        + exists vals, (Some d'). split; [|exists v; auto]. cbn [enum_loop]. rewrite EM, NX. cbn [obind].
          rewrite (handle_des _ _ _ _ _ R). cbv zeta. rewrite RB, (from_event_tag _ _ T). cbn [is_continue_tag].
          rewrite T. reflexivity.
      - exists got, None. split; reflexivity.
    Qed.

    (** One more occurrence. *)
    Lemma item_var got more st h e evs v more' h1 h0 : at_var got more st ->
      l_occ (s_lang s) h (e :: evs) v more' h1 -> dh_event h e = Some h0 -> ~ fits h0 e more -> room s (length got) ->
      exists art', feeds blank des st h (e :: evs) art' h1 /\ at_art (got ++ [v]) more' art'.
    Proof.
      intros AT OC E0 NF RM. pose proof MO as (_ & IM & _).
      destruct (proj1 (IM (m_any m)) _ _ _ _ _ OC) as ((e' & r' & EE & T) & _ & art & BG & CP). injection EE as <- <-.
      exists (var_after got art). split; [|apply after_var; assumption].
      assert (TAG : forall art0 ev x h2, member_start m (m_any m) h0 e = Ok (DOut art0 ev x, h2) ->
        consumed blank ev -> art0 <> ANone -> de_next des st h0 e = Ok (DOut (var_after got art0) ev x, h2)).
      { intros art0 ev x h2 MS C N. cbn [de_next enum_deser]. unfold enum_next, enum_fuel.
        destruct (refused_run 3 got more st h0 e AT T NF RM) as (vals & fb & EQ & CASES). rewrite EQ.
        assert (GEN : forall fuel, loop (S fuel) (EAt i vals fb None) h0 e = Ok (DOut (var_after got art0) ev x, h2)).
        { intros fuel. destruct fb as [d|].
          - destruct CASES as (w & -> & R & FI). cbn [enum_loop]. rewrite (tag_not_end _ T), T, EM.
            match goal with |- context [obind ?x _] => replace x with (member_start m (m_any m) h0 e) by (unfold member_start; destruct (m_kind m); reflexivity) end.
            rewrite MS. cbn [obind].
            assert (EH : enum_handle elem defaultable ms i m vals (Some d) (DOut art0 ev x) h2 =
                         enum_handle elem defaultable ms i m (vals ++ [w]) None (DOut art0 ev x) h2).
            { unfold enum_handle. cbn [o_art o_ev o_any]. destruct art0; [elim N; reflexivity| |];
                rewrite FI; cbn [obind]; rewrite (store_ok _ _ _ _ _ MO R); reflexivity. }
            rewrite EH. destruct (handled_e (vals ++ [w]) art0 ev x h2 RM C N) as (st' & -> & _ & EE). cbn [obind]. exact EE.
          - subst vals. eapply next_start; eassumption. }
        destruct (match st with EAt _ _ _ (Some _) => true | _ => false end); apply GEN. }
      inversion BG as [h3 e3 h4 art0 ev x h5 E1 MS C N E2 E3|h3 e3 h4 d0 ev x h5 evs0 art0 h6 E1 MS C FD E2 E3]; subst.
      - rewrite E0 in E1. injection E1 as <-. eapply feeds_last; [exact E0|exact (TAG _ _ _ _ MS C N)|exact C|].
        destruct art; [elim N; reflexivity| |discriminate]. cbn [var_after]. destruct (leaves _); discriminate.
      - rewrite E0 in E1. injection E1 as <-. eapply feeds_step; [exact E0|apply (TAG _ _ _ _ MS C); discriminate|exact C|].
        cbn [var_after]. apply feed_var; assumption.
    Qed.

    Lemma space_var got more st h e : at_var got more st -> ignorable blank e ->
      exists st' ev any, de_next des st h e = Ok (DOut (ADes st') ev any, h) /\ consumed blank ev /\ at_var got more st'.
    Proof.
      intros AT IG. cbn [de_next enum_deser]. unfold enum_next, enum_fuel. destruct AT as [vals v more d R DW|got more NE B L].
      - destruct DW as (inv & ID & DW). destruct (DW d ID) as (_ & _ & _ & SP).
        destruct (SP h e IG) as (d' & ev & any & NX & C & ID'). exists (EAt i vals None (Some d')), ev, any.
        split; [|split; [exact C|apply av_run; [exact R|exists inv; auto]]].
        apply (next_run _ vals d h e (ADes d') ev any h R C); [discriminate|exact NX].
      - exists (EAt i got None None). destruct (ignorable_kind _ _ IG) as [T E]. cbn [enum_loop]. rewrite E, T.
        destruct (mixed && is_chars e); eexists; eexists; (split; [reflexivity|]); (split; [|apply av_rest; assumption]); [exact I|exact IG].
    Qed.

    Lemma run_var got more h evs got' more' h' : run1 blank s got more h evs got' more' h' ->
      forall art, at_art got more art -> (elem = false -> evs = [] \/ ends_with_tag evs) ->
      exists art', gone blank des art h evs art' h' /\ at_art got' more' art'.
    Proof.
      induction 1 as [got more h|got more h e h1 evs got' more' h2 IG E1 R IH|got more h e evs h0 v more1 h1 rest got' more' h2 OC E0 NF RM R IH];
        intros art AA ET.
      - exists art. split; [apply gone_nil|exact AA].
      - assert (NS : leaves (length got) = true -> False).
        { intros L. unfold leaves in L. destruct elem; [discriminate L|]. destruct (ET eq_refl) as [X|X]; [discriminate X|].
          cbn in L. assert (NR : ~ room s (length got)) by (intros Y; apply roomb_iff in Y; rewrite Y in L; discriminate L).
          destruct (run1_full _ _ _ _ _ _ _ _ _ R NR) as (F & _). eapply ends_not_spaces; [exact X|]. constructor; eassumption. }
        destruct AA as [(st & -> & AT)|(_ & L)]; [|elim (NS L)].
        destruct (space_var got more st h1 e AT IG) as (st' & ev & any & NX & C & AT').
        destruct (IH (ADes st') (or_introl (ex_intro _ st' (conj eq_refl AT')))) as (art' & G & AA').
        { intros EL. destruct (ET EL) as [X|X]; [discriminate X|]. exact (ends_app [e] evs X). }
        exists art'. split; [|exact AA']. right. exists st. split; [reflexivity|].
        change (e :: evs) with ([e] ++ evs). eapply feeds_gone; [|exact G]. eapply feeds_last; [exact E1|exact NX|exact C|discriminate].
      - assert (NL : leaves (length got) = false).
        { unfold leaves. apply roomb_iff in RM. rewrite RM. apply Bool.andb_false_r. }
        destruct AA as [(st & -> & AT)|(_ & L)]; [|congruence].
        destruct (item_var got more st h e evs v more1 h1 h0 AT OC E0 NF RM) as (art1 & F1 & AA1).
        destruct (IH art1 AA1) as (art' & G & AA').
        { intros EL. destruct (ET EL) as [X|X]; [discriminate X|]. exact (ends_app (e :: evs) rest X). }
        exists art'. split; [|exact AA']. right. exists st. split; [reflexivity|].
        exact (feeds_gone _ _ _ _ (e :: evs) _ _ _ _ _ F1 G).
    Qed.

    Lemma at_bounded got more st : at_var got more st ->
      match s_max s with Bounded n => length got <= n | Unbounded => True end.
    Proof. intros [vals v mo d R DW|g mo NE B L]; [apply room_max; exact R|exact B]. Qed.

    Lemma finish_at got more st vals h : at_var got more st -> settled s got vals ->
      finish_state st h = Ok ((i, vals), h).
    Proof.
      intros AT ST. pose proof (at_bounded _ _ _ AT) as B. destruct AT as [vs v more d R DW|got more NE B' L].
      - destruct DW as (inv & ID & DW). destruct (DW d ID) as (FI & _). cbn [enum_finish_state]. rewrite EM, FI. cbn [obind].
        rewrite (store_ok _ _ _ _ _ MO R). cbn [obind]. rewrite (finish_field_ok _ _ _ _ _ h MO ST B). reflexivity.
      - apply finish_var; assumption.
    Qed.

    Lemma settled_full got vals : settled s got vals -> s_min s <= length got -> vals = got.
    Proof.
      intros [[_ ->]|(v & _ & ->)] L; [reflexivity|]. replace (s_min s - length got) with 0 by lia. apply app_nil_r.
    Qed.

    Lemma end_at got more st vals h n : at_var got more st -> settled s got vals ->
      exists ev any, de_next des st h (EEnd n) = Ok (DOut (AData (i, vals)) ev any, h) /\
        ev = if elem then DNone else DContinue (EEnd n).
    Proof.
      intros AT ST. pose proof (at_bounded _ _ _ AT) as B. cbn [de_next enum_deser]. unfold enum_next, enum_fuel. destruct AT as [vs v more d R DW|got more NE B' L].
      - destruct DW as (inv & ID & DW). destruct (DW d ID) as (_ & EN & _). destruct (EN h n) as (x & NX).
        cbn [enum_loop]. rewrite EM, NX. cbn [obind]. rewrite (handle_data _ _ _ _ _ R).
        destruct (leaves (length (vs ++ [v]))) eqn:L; cbn [obind].
        + unfold leaves in L. apply Bool.andb_true_iff in L as [L1 L2]. apply Bool.negb_true_iff in L1, L2. rewrite L1.
          assert (vals = vs ++ [v]) as ->.
          { exact (settled_full _ _ ST (full_min _ _ R L2)). }
          eexists; eexists; split; reflexivity.
        + cbn [from_event is_tag is_end orb enum_loop]. rewrite (finish_var _ vals h ST B). cbn [obind]. eexists; eexists; split; reflexivity.
      - cbn [enum_loop is_end]. rewrite (finish_var _ vals h ST B). cbn [obind]. eexists; eexists; split; reflexivity.
    Qed.

    Lemma refuse_at got more st vals h e : elem = false -> at_var got more st -> settled s got vals -> is_tag e = true ->
      ~ fits h e more -> (room s (length got) -> ~ fits h e (l_first (s_lang s))) ->
      exists art any, de_next des st h e = Ok (DOut art (DContinue e) any, h) /\
        (art = AData (i, vals) \/ exists st', art = ADes st' /\ forall h, finish_state st' h = Ok ((i, vals), h)).
    Proof.
      intros EL AT ST T NF NR. pose proof (at_bounded _ _ _ AT) as B.
      destruct (roomb (s_max s) (length got)) eqn:RB.
      - assert (RM : room s (length got)) by (apply roomb_iff; exact RB).
        destruct (refused_run 3 got more st h e AT T NF RM) as (vs & fb & EQ & CASES).
        pose proof MO as (_ & IM & _ & EX & SM & DF). destruct (IM (m_any m)) as [_ RF]. destruct (RF h e T (NR RM)) as (x & RE).
        cbn [de_next enum_deser]. unfold enum_next, enum_fuel. rewrite EQ.
        assert (NG : got <> []).
        { destruct AT; [destruct vals0; discriminate|assumption]. }
        assert (MU : match m_occ m with ODynamic | OStatic _ => True | _ => False end).
        { destruct (multi_or got RM) as [(_ & E & _)|MU]; [elim (NG E)|exact MU]. }
        assert (MIN : (negb (Nat.eqb (m_min m) 0 || is_some (m_default m)) &&
                       Nat.ltb (length got) (m_min m)) = false).
        { destruct ST as [[L _]|(v & D0 & _)].
          - replace (Nat.ltb (length got) (m_min m)) with false; [apply Bool.andb_false_r|]. symmetry. apply Nat.ltb_ge.
            rewrite SM in L. destruct (m_occ m); try (elim MU; fail); exact L.
          - rewrite D0 in DF. destruct DF as [DF|DF].
            + rewrite DF in SM. destruct (m_occ m); try (elim MU; fail); rewrite <- SM; reflexivity.
            + destruct (m_default m); [|elim DF]. cbn. rewrite Bool.orb_true_r. reflexivity. }
        assert (GEN : forall fuel, exists art any, loop (S fuel) (EAt i vs fb None) h e = Ok (DOut art (DContinue e) any, h) /\
          (exists st', art = ADes st' /\ forall h, finish_state st' h = Ok ((i, vals), h))).
        { intros fuel. cbn [enum_loop]. rewrite (tag_not_end _ T), T, EM.
          match goal with |- context [obind ?x _] => replace x with (member_start m (m_any m) h e) by (unfold member_start; destruct (m_kind m); reflexivity) end.
          rewrite RE. cbn [obind].
          assert (EH : enum_handle elem defaultable ms i m vs fb (DOut ANone (DContinue e) x) h =
                       Ok (HBreak (DContinue e) x, EAt i vs None fb, h)).
          { unfold enum_handle. cbn [o_art o_ev o_any].
            replace (length got) with (length vs + (if is_some fb then 1 else 0)) in MIN.
            - assert (NE : match fb, vs with None, [] => False | _, _ => True end).
              { destruct fb; [exact I|]. subst vs. destruct got; [elim NG; reflexivity|exact I]. }
              destruct (m_occ m); try (elim MU; fail);
                (destruct fb as [d|]; [|destruct vs as [|v0 vs]; [elim NE|]]; rewrite MIN; unfold break_or_end; rewrite EL; reflexivity).
            - destruct fb as [d|]; cbn [is_some]; [destruct CASES as (w & -> & _); rewrite app_length; reflexivity|subst vs; lia]. }
          rewrite EH. cbn [obind enum_end]. eexists; eexists. split; [reflexivity|].
          eexists; split; [reflexivity|]. intros h0. destruct fb as [d|].
          - destruct CASES as (w & -> & R & FI). cbn [enum_finish_state]. rewrite EM, FI. cbn [obind].
            rewrite (store_ok _ _ _ _ _ MO R). cbn [obind]. rewrite (finish_field_ok _ _ _ _ _ h0 MO ST B). reflexivity.
          - subst vs. apply finish_var; assumption. }
        destruct (match st with EAt _ _ _ (Some _) => true | _ => false end).
        + destruct (GEN 2) as (art & any & E & H). exists art, any. split; [exact E|right; exact H].
        + destruct (GEN 3) as (art & any & E & H). exists art, any. split; [exact E|right; exact H].
      - assert (LV : leaves (length got) = true) by (unfold leaves; rewrite EL, RB; reflexivity).
        destruct AT as [vs v more d R DW|got more NE B' L]; [|congruence].
        destruct DW as (inv & ID & DW). destruct (DW d ID) as (_ & _ & RF & _).
        destruct (RF h e T NF) as (art & x & NX & CASES).
        assert (vals = vs ++ [v]) as ->.
        { exact (settled_full _ _ ST (full_min _ _ R RB)). }
        cbn [de_next enum_deser]. unfold enum_next, enum_fuel. cbn [enum_loop]. rewrite EM, NX. cbn [obind].
        destruct CASES as [->|(d' & -> & FI)].
        + rewrite (handle_data _ _ _ _ _ R), LV. cbn [obind enum_end]. eexists; eexists. split; [reflexivity|left; reflexivity].
        + rewrite (handle_des _ _ _ _ _ R). cbv zeta.
          rewrite app_length, Nat.add_comm in RB. cbn [length Nat.add] in RB. rewrite RB. unfold break_or_end. rewrite EL. cbn [obind andb enum_end].
          eexists; eexists. split; [reflexivity|right]. eexists; split; [reflexivity|]. intros h0.
          cbn [enum_finish_state]. rewrite EM, FI. cbn [obind].
          rewrite (store_ok _ _ _ _ _ MO R). cbn [obind]. rewrite (finish_field_ok _ _ _ _ _ h0 MO ST B). reflexivity.
    Qed.

    Lemma done_var got more st vals : elem = false -> at_var got more st -> settled s got vals ->
      done_with blank des (i, vals) (still_next [s] (0, [got], more)) st.
    Proof.
      intros EL AT ST. exists (at_var got more). split; [exact AT|]. intros d AT0. split; [|split; [|split]].
      - intros h. exact (finish_at _ _ _ _ h AT0 ST).
      - intros h n. destruct (end_at _ _ _ _ h n AT0 ST) as (ev & any & E & EV).
        replace ev with (DContinue (EEnd n)) in E by (rewrite EV, EL; reflexivity). exists any. exact E.
      - intros h e T NS. apply (refuse_at got more d vals h e EL AT0 ST T).
        + intros (l & Hl & Hc). apply NS. exists l. split; [left; exact Hl|exact Hc].
        + intros RM (l & Hl & Hc). apply NS. exists l. split; [|exact Hc]. right; left. exists s. auto.
      - intros h e IG. exact (space_var _ _ _ h e AT0 IG).
    Qed.
  End Variant.

  (** ** Finding the variant *)
  Lemma find_tag_none (l : list (member V D)) (ls : list (slot V)) h e : Forall2 (member_ok blank) l ls -> (forall t, In t ls -> ~ fits h e (l_first (s_lang t))) ->
    forall k, find_tag k l e h = None.
  Proof.
    intros F. induction F as [|m s l ls MO F IH]; intros NF k; [reflexivity|]. cbn [find_tag].
    replace (mkind_eqb (m_kind m) KindElement && check_tag h e (m_ns m) (m_name m)) with false.
    - apply IH. intros t Ht. apply NF. right. exact Ht.
    - symmetry. destruct (m_kind m) eqn:K; try reflexivity. cbn. destruct (check_tag h e (m_ns m) (m_name m)) eqn:C; [|reflexivity].
      elim (NF s); [left; reflexivity|]. pose proof MO as (FI & _). rewrite K in FI. rewrite FI. exists (m_ns m, m_name m). split; [reflexivity|exact C].
  Qed.

  Lemma find_tag_at (l : list (member V D)) (ls : list (slot V)) h e j m s : Forall2 (member_ok blank) l ls -> nth_error l j = Some m -> nth_error ls j = Some s ->
    m_kind m = KindElement -> check_tag h e (m_ns m) (m_name m) = true ->
    (forall k t, nth_error ls k = Some t -> k <> j -> ~ fits h e (l_first (s_lang t))) ->
    forall k, find_tag k l e h = Some (k + j, m).
  Proof.
    intros F. revert j. induction F as [|m0 s0 l ls MO F IH]; intros [|j] EM ES K C NF k; try discriminate EM; cbn in EM, ES.
    - injection EM as ->. cbn [find_tag]. rewrite K, C. cbn. rewrite Nat.add_0_r. reflexivity.
    - cbn [find_tag]. replace (mkind_eqb (m_kind m0) KindElement && check_tag h e (m_ns m0) (m_name m0)) with false.
      + rewrite (IH j EM ES K C); [f_equal; f_equal; lia|]. intros k0 t E N. apply (NF (S k0) t E). lia.
      + symmetry. destruct (m_kind m0) eqn:K0; try reflexivity. cbn. destruct (check_tag h e (m_ns m0) (m_name m0)) eqn:C0; [|reflexivity].
        elim (NF 0 s0 eq_refl); [lia|]. pose proof MO as (FI & _). rewrite K0 in FI. rewrite FI.
        exists (m_ns m0, m_name m0). split; [reflexivity|exact C0].
  Qed.

  (** A group that refuses the tag is passed. *)
  Lemma group_refuses (m : member V D) (s : slot V) h e k l any : member_ok blank m s -> m_kind m = KindGroup -> is_tag e = true ->
    ~ fits h e (l_first (s_lang s)) ->
    exists any', try_groups elem defaultable ms sel_group k (m :: l) e any h = try_groups elem defaultable ms sel_group (S k) l e any' h.
  Proof.
    intros MO K T NF. pose proof MO as (_ & IM & _). destruct (IM true) as [_ RF]. destruct (RF h e T NF) as (x & RE).
    unfold member_start in RE. rewrite K in RE. exists (any || x). cbn [try_groups]. rewrite K. cbn [sel_group]. rewrite RE. cbn [obind].
    assert (EH : exists st, enum_handle elem defaultable ms k m [] None (DOut ANone (DContinue e) x) h = Ok (HContinue e x, st, h)).
    { unfold enum_handle, continue_or_return. cbn [o_art o_ev o_any]. rewrite K, (from_event_tag _ _ T).
      destruct (occ_cases _ _ _ MO) as [(-> & _)|[(-> & _)|[(-> & _)|(n & -> & _)]]]; eexists; reflexivity. }
    destruct EH as (st & ->). reflexivity.
  Qed.

  Lemma groups_refuse (l : list (member V D)) (ls : list (slot V)) h e : Forall2 (member_ok blank) l ls -> is_tag e = true ->
    (forall t, In t ls -> ~ fits h e (l_first (s_lang t))) ->
    forall k any, exists any', try_groups elem defaultable ms sel_group k l e any h = Ok (inr (e, any', h)).
  Proof.
    intros F T. induction F as [|m s l ls MO F IH]; intros NF k any; [eexists; reflexivity|].
    destruct (kind_cases blank m s MO) as [K|K].
    - cbn [try_groups]. rewrite K. cbn [sel_group]. apply IH. intros t Ht. apply NF. right; exact Ht.
    - destruct (group_refuses m s h e k l any MO K T (NF s (or_introl eq_refl))) as (any' & ->).
      apply IH. intros t Ht. apply NF. right; exact Ht.
  Qed.

  Lemma no_anys (l : list (member V D)) (ls : list (slot V)) h e : Forall2 (member_ok (V:=V) (D:=D) blank) l ls ->
    forall k any, try_groups elem defaultable ms sel_any k l e any h = Ok (inr (e, any, h)).
  Proof.
    intros F. induction F as [|m s l ls MO F IH]; intros k any; [reflexivity|]. cbn [try_groups].
    replace (sel_any (m_kind m)) with false; [apply IH|]. destruct (kind_cases blank m s MO) as [-> | ->]; reflexivity.
  Qed.

  Lemma no_texts (l : list (member V D)) (ls : list (slot V)) : Forall2 (member_ok (V:=V) (D:=D) blank) l ls -> forall k, first_text k l = None.
  Proof.
    intros F. induction F as [|m s l ls MO F IH]; intros k; [reflexivity|]. cbn [first_text].
    replace (mkind_eqb (m_kind m) KindText) with false; [apply IH|]. destruct (kind_cases blank m s MO) as [-> | ->]; reflexivity.
  Qed.

  Lemma refuse_choice h e : is_tag e = true -> ~ fits h e (first_of ss) ->
    exists any, de_next des EInit h e = Ok (DOut (ADes EInit) (DContinue e) any, h).
  Proof.
    intros T NF. cbn [de_next enum_deser]. unfold enum_next, enum_fuel. cbn [enum_loop]. rewrite (tag_not_end _ T).
    assert (NE : forall t, In t ss -> ~ fits h e (l_first (s_lang t))).
    { intros t Ht (l & Hl & Hc). apply NF. exists l. split; [|exact Hc]. exists t. auto. }
    unfold find_suitable. rewrite T, (find_tag_none ms ss h e OK NE).
    destruct (groups_refuse ms ss h e OK T NE 0 false) as (any & ->). cbn [obind].
    rewrite (no_anys ms ss h e OK). cbn [obind]. rewrite (no_texts ms ss OK). cbn [obind return_to_parent].
    unfold return_to_parent. cbn [enum_end]. eexists; reflexivity.
  Qed.

  Lemma space_choice h e : ignorable blank e ->
    exists any, de_next des EInit h e = Ok (DOut (ADes EInit) (DContinue e) any, h).
  Proof.
    intros IG. destruct (ignorable_kind _ _ IG) as [T E].
    cbn [de_next enum_deser]. unfold enum_next, enum_fuel. cbn [enum_loop]. rewrite E.
    unfold find_suitable. rewrite T, (no_texts ms ss OK). cbn [obind]. unfold return_to_parent. cbn [enum_end]. eexists; reflexivity.
  Qed.

  (** The first tag selects the variant. *)
  Lemma first_var i m s h e art ev x h2 : nth_error ms i = Some m -> nth_error ss i = Some s ->
    is_tag e = true -> fits h e (l_first (s_lang s)) ->
    (forall k t, nth_error ss k = Some t -> k <> i -> ~ fits h e (l_first (s_lang t))) ->
    consumed blank ev -> art <> ANone ->
    (forall any, member_start m any h e = Ok (DOut art ev x, h2)) ->
    exists st, de_next des EInit h e = Ok (DOut (var_after i s [] art) ev x, h2) /\ st <> EInit /\
      enum_end st h2 ev x = Ok (DOut (var_after i s [] art) ev x, h2).
  Proof.
    intros EM ES T FT NF C N MS.
    destruct (Forall2_nth _ _ _ _ _ OK EM) as (s' & ES' & MO). rewrite ES in ES'. injection ES' as <-.
    assert (R0 : room s 0).
    { pose proof MO as (_ & _ & B & EX & _). unfold room. rewrite EX. destruct (m_max m); [exact I|lia]. }
    destruct (handled_e i m s EM MO [] art ev x h2 R0 C N) as (st & EH & NI & EE).
    exists st. split; [|split; [exact NI|exact EE]].
    cbn [de_next enum_deser]. unfold enum_next, enum_fuel. cbn [enum_loop]. rewrite (tag_not_end _ T).
    unfold find_suitable. rewrite T. destruct (kind_cases blank m s MO) as [K|K].
    - assert (CT : check_tag h e (m_ns m) (m_name m) = true).
      { pose proof MO as (FI & _). rewrite K in FI. rewrite FI in FT. destruct FT as (l & -> & CC). exact CC. }
      rewrite (find_tag_at ms ss h e i m s OK EM ES K CT NF 0). cbn [Nat.add].
      specialize (MS true). unfold member_start in MS. rewrite K in MS. unfold init_start_tag in MS. rewrite CT in MS.
      rewrite MS. cbn [obind]. rewrite EH. cbn [obind]. exact EE.
    - assert (FN : forall k, find_tag k ms e h = None).
      { clear - OK NF ES EM K MO. 
        assert (GEN : forall (l : list (member V D)) (ls : list (slot V)), Forall2 (member_ok blank) l ls -> forall b,
          (forall k m0 t, nth_error l k = Some m0 -> nth_error ls k = Some t -> m_kind m0 = KindElement -> ~ fits h e (l_first (s_lang t))) ->
          find_tag b l e h = None).
        { intros l ls F. induction F as [|m0 s0 l ls MO0 F IH]; intros b H; [reflexivity|]. cbn [find_tag].
          replace (mkind_eqb (m_kind m0) KindElement && check_tag h e (m_ns m0) (m_name m0)) with false.
          - apply IH. intros k m1 t. exact (H (S k) m1 t).
          - symmetry. destruct (m_kind m0) eqn:K0; try reflexivity. cbn. destruct (check_tag h e (m_ns m0) (m_name m0)) eqn:C0; [|reflexivity].
            elim (H 0 m0 s0 eq_refl eq_refl K0). pose proof MO0 as (FI & _). rewrite K0 in FI. rewrite FI.
            exists (m_ns m0, m_name m0). split; [reflexivity|exact C0]. }
        intros k. apply (GEN ms ss OK). intros k0 m0 t E1 E2 K0. apply (NF k0 t E2). intros ->. congruence. }
      rewrite FN.
      assert (TG : forall (l : list (member V D)) (ls : list (slot V)), Forall2 (member_ok blank) l ls -> forall b j any, nth_error l j = Some m -> nth_error ls j = Some s -> b + j = i ->
        (forall k t, nth_error ls k = Some t -> k <> j -> ~ fits h e (l_first (s_lang t))) ->
        try_groups elem defaultable ms sel_group b l e any h = Ok (inl (HBreak ev x, st, h2))).
      { intros l ls F. induction F as [|m0 s0 l ls MO0 F IH]; intros b [|j] any E1 E2 EB H; try discriminate E1; cbn in E1, E2.
        - injection E1 as ->. cbn [try_groups]. rewrite K. cbn [sel_group]. specialize (MS true). unfold member_start in MS. rewrite K in MS.
          rewrite MS. cbn [obind]. rewrite Nat.add_0_r in EB. subst b. rewrite EH. reflexivity.
        - destruct (kind_cases blank m0 s0 MO0) as [K0|K0].
          + cbn [try_groups]. rewrite K0. cbn [sel_group]. apply (IH (S b) j); try assumption; [lia|].
            intros k t E NK. apply (H (S k) t E). lia.
          + destruct (group_refuses m0 s0 h e b l any MO0 K0 T) as (any' & ->); [apply (H 0 s0 eq_refl); lia|].
            apply (IH (S b) j); try assumption; [lia|]. intros k t E NK. apply (H (S k) t E). lia. }
      rewrite (TG ms ss OK 0 i false EM ES eq_refl NF). cbn [obind]. exact EE.
  Qed.

  (** ** The theorems *)
  Lemma start_same m s any : member_ok (V:=V) (D:=D) blank m s -> forall h e art ev x h', art <> ANone ->
    member_start m any h e = Ok (DOut art ev x, h') -> forall any', member_start m any' h e = Ok (DOut art ev x, h').
  Proof.
    intros MO h e art ev x h' N MS any'. unfold member_start in *. destruct (m_kind m); try exact MS.
    unfold init_start_tag in *. destruct (check_tag h e (m_ns m) (m_name m)); [exact MS|]. congruence.
  Qed.

  Lemma first_item i m s h e evs v more h1 h0 : nth_error ms i = Some m -> nth_error ss i = Some s ->
    member_ok blank m s -> l_occ (s_lang s) h (e :: evs) v more h1 -> dh_event h e = Some h0 ->
    (forall k t, nth_error ss k = Some t -> k <> i -> ~ fits h0 e (l_first (s_lang t))) ->
    exists art', feeds blank des EInit h (e :: evs) art' h1 /\
      begins blank des (enum_init_group elem allow_any mixed defaultable ms) h (e :: evs) art' h1 /\ at_art i m s [v] more art'.
  Proof.
    intros EM ES MO OC E0 NF. pose proof MO as (_ & IM & B & EX & _).
    destruct (proj1 (IM true) _ _ _ _ _ OC) as ((e' & r' & EE & T) & FT & art & BG & CP). injection EE as <- <-.
    specialize (FT e evs h0 eq_refl E0).
    assert (R0 : room s (length (@nil V))) by (unfold room; rewrite EX; destruct (m_max m); [exact I|cbn; lia]).
    exists (var_after i s [] art).
    assert (AA : at_art i m s [v] more (var_after i s [] art)) by (exact (after_var i m s [] art v more R0 CP)).
    assert (GRP : forall art0 ev x h2, de_next des EInit h0 e = Ok (DOut (var_after i s [] art0) ev x, h2) -> art0 <> ANone ->
      enum_init_group elem allow_any mixed defaultable ms h0 e = Ok (DOut (var_after i s [] art0) ev x, h2)).
    { intros art0 ev x h2 E NA. unfold enum_init_group. cbn [de_next enum_deser] in E. rewrite E. cbn [obind o_art o_ev o_any].
      destruct art0 as [|w|d]; [elim NA; reflexivity| |reflexivity]. cbn [var_after]. destruct (leaves _ _); reflexivity. }
    inversion BG as [h3 e3 h4 art0 ev x h5 E1 MS C N E2 E3|h3 e3 h4 d0 ev x h5 evs0 art0 h6 E1 MS C FD E2 E3]; subst.
    - rewrite E0 in E1. injection E1 as <-.
      destruct (first_var i m s h0 e art ev x h1 EM ES T FT NF C N (start_same m s true MO _ _ _ _ _ _ N MS)) as (_ & NX & _).
      assert (NV : var_after i s [] art <> ANone) by (destruct art; [elim N; reflexivity| |discriminate]; cbn [var_after]; destruct (leaves _ _); discriminate).
      split; [eapply feeds_last; eassumption|]. split; [|exact AA].
      eapply begins_one; [exact E0|exact (GRP _ _ _ _ NX N)|exact C|exact NV].
    - rewrite E0 in E1. injection E1 as <-.
      assert (N : ADes (T:=V) d0 <> ANone) by discriminate.
      destruct (first_var i m s h0 e (ADes d0) ev x h5 EM ES T FT NF C N (start_same m s true MO _ _ _ _ _ _ N MS)) as (_ & NX & _).
      pose proof (feed_var i m s EM MO [] d0 h5 evs art h1 R0 FD) as FV.
      split; [eapply feeds_step; [exact E0|exact NX|exact C|exact FV]|]. split; [|exact AA].
      eapply begins_more; [exact E0|exact (GRP _ _ _ _ NX N)|exact C|exact FV].
  Qed.

  Lemma still_one (s : slot V) p got more : p = (0, [got], more) -> still_next [s] p = still_next [s] (0, [got], more).
  Proof. intros ->. reflexivity. Qed.

  Theorem choice_group : elem = false ->
    implements blank des (enum_init_group elem allow_any mixed defaultable ms) (choice_lang blank ss).
  Proof.
    intros EL. split.
    - intros h evs [i vals] more h' (BT & ET & s & ES & (p & F & -> & ST) & NF). cbn [fst snd] in *.
      destruct (Forall2_nth_r _ _ _ _ _ OK ES) as (m & EM & MO).
      destruct (follows_run1 blank s m _ _ _ _ _ MO F [] no_labels eq_refl) as (got' & more' & -> & R).
      assert (EL' : negb elem = true) by (rewrite EL; reflexivity). clear EL.
      destruct BT as (e & rest0 & EE & T). inversion R as [| got0 more0 h0 e0 h1 evs0 g1 m1 h2 IG E1 R1|got0 more0 h0 e0 evs1 h1 v m1 h2 rest g1 m2 h3 OC E0 NM RM R1]; subst.
      + discriminate.
      + match goal with H : _ :: _ = _ :: _ |- _ => injection H as -> -> end. destruct (ignorable_kind _ _ IG) as [TT _]. congruence.
      + match goal with H : _ :: _ = _ :: _ |- _ => injection H as -> <- end.
        assert (EL : elem = false) by (destruct elem; [discriminate EL'|reflexivity]).
        assert (NF' : forall k t, nth_error ss k = Some t -> k <> i -> ~ fits h1 e (l_first (s_lang t))).
        { intros k t Et Nk. exact (NF e _ h1 k t eq_refl E0 Et Nk). }
        destruct (first_item i m s h e evs1 v m1 h2 h1 EM ES MO OC E0 NF') as (art1 & _ & BG & AA).
        destruct (run_var i m s EM MO _ _ _ _ _ _ _ R1 art1 AA) as (art' & G & AA').
        { intros _. exact (ends_app (e :: evs1) rest ET). }
        split; [exists e, (evs1 ++ rest); auto|]. split.
        { intros e9 r9 h9 E9 D9. injection E9 as <- <-. rewrite E0 in D9. injection D9 as <-.
          pose proof MO as (_ & IM & _). destruct (proj1 (IM true) _ _ _ _ _ OC) as (_ & FT & _).
          destruct (FT e evs1 h1 eq_refl E0) as (l & Hl & Hc). exists l. split; [|exact Hc]. exists s. split; [eapply nth_error_In; exact ES|exact Hl]. }
        exists art'. split; [exact (begins_gone blank _ _ _ (e :: evs1) _ _ _ _ _ BG G)|].
        destruct ST as (_ & _ & ST). specialize (ST 0 s eq_refl). cbn [nth] in ST.
        destruct AA' as [(st & -> & AT)|(-> & L)].
        * right. exists st. split; [reflexivity|]. exact (done_var i m s EM MO got' more' st vals EL AT ST).
        * left. f_equal. f_equal. symmetry. apply (settled_full s got' vals ST).
          unfold leaves in L. rewrite EL in L. cbn in L. apply Bool.negb_true_iff in L.
          pose proof MO as (_ & _ & B & EX & SM & _). unfold roomb in L. rewrite EX in L. destruct (m_max m) as [|n]; [discriminate L|].
          apply Nat.ltb_ge in L. rewrite SM. destruct (m_occ m); lia.
    - intros h e T NF. destruct (refuse_choice h e T NF) as (any & E). exists any.
      unfold enum_init_group. cbn [de_next enum_deser] in E. rewrite E. reflexivity.
  Qed.

  Theorem choice_ignores : ignores blank (enum_init_group elem allow_any mixed defaultable ms).
  Proof.
    intros h e IG. destruct (space_choice h e IG) as (any & E). exists (DContinue e), any.
    split; [|exact IG]. unfold enum_init_group. cbn [de_next enum_deser] in E. rewrite E. reflexivity.
  Qed.

  Lemma spaces_fed h evs h' : spaces blank h evs h' -> fed blank des EInit h evs EInit h'.
  Proof.
    induction 1 as [h|h e h1 evs h2 IG E1 S IH]; [apply fed_nil|].
    destruct (space_choice h1 e IG) as (any & E). eapply fed_cons; [exact E1|exact E|exact IG|exact IH].
  Qed.

  Lemma run1_spaces (s : slot V) got more h evs got' more' h' : run1 blank s got more h evs got' more' h' ->
    (forall e, In e evs -> is_tag e = false) \/
    exists sp e evs1 rest h1 h2 v m1 h3, evs = sp ++ e :: evs1 ++ rest /\ spaces blank h sp h1 /\ dh_event h1 e = Some h2 /\
      l_occ (s_lang s) h1 (e :: evs1) v m1 h3 /\ ~ fits h2 e more /\ room s (length got) /\
      run1 blank s (got ++ [v]) m1 h3 rest got' more' h'.
  Proof.
    induction 1 as [got more h|got more h e h1 evs got' more' h2 IG E1 R IH|got more h e evs h0 v more1 h1 rest got' more' h2 OC E0 NF RM R IH].
    - left. intros e [].
    - destruct IH as [IH|(sp & e0 & evs1 & rest & h3 & h4 & v & m1 & h5 & -> & SP & E0 & OC & NF & RM & R1)].
      + left. intros x [<-|Hx]; [exact (proj1 (ignorable_kind _ _ IG))|exact (IH x Hx)].
      + right. exists (e :: sp), e0, evs1, rest, h3, h4, v, m1, h5. split; [reflexivity|]. split; [eapply spaces_cons; eassumption|]. auto.
    - right. exists [], e, evs, rest, h, h0, v, more1, h1. split; [reflexivity|]. split; [apply spaces_nil|]. auto.
  Qed.

  Lemma default_ok m s vals h : member_ok (V:=V) (D:=D) blank m s -> settled s [] vals -> variant_default m h = Ok ((0, vals), h).
  Proof.
    intros MO ST. pose proof (finish_field_ok blank m s [] vals h MO ST) as FF.
    assert (E : finish_field m [] h = Ok (vals, h)) by (apply FF; destruct (s_max s); [exact I|cbn; lia]). clear FF.
    unfold variant_default, finish_field in *.
    destruct (occ_cases _ _ _ MO) as [(EO & _)|[(EO & _)|[(EO & SM & _)|(q & EO & _ & _ & _ & L)]]]; rewrite EO in *.
    - destruct (m_default m) as [df|]; [|cbn in E; discriminate E]. cbn [hd_error] in E. unfold finish_default in E.
      destruct (df h) as [[v h']| |]; try discriminate E. cbn in *. injection E as <- <-. reflexivity.
    - injection E as <-. reflexivity.
    - destruct (m_min m) as [|mn]; [injection E as <-; reflexivity|]. destruct (m_default m) as [df|] eqn:ED0; [rewrite E; reflexivity|].
      pose proof MO as (_ & _ & _ & _ & _ & DF). destruct ST as [[L _]|(v & D0 & _)]; [cbn in L; lia|].
      rewrite D0 in DF. destruct DF as [DF|DF]; [congruence|]. destruct (m_default m) eqn:ED; [|elim DF]. congruence.
    - destruct (m_default m) as [df|]; [rewrite E; reflexivity|]. unfold finish_arr in E. cbn in E.
      destruct q as [|q]; [lia|discriminate E].
  Qed.

  Theorem choice_element h evs v h' : elem = true ->
    (defaultable = true -> ms <> []) ->
    element_of from_start (fun _ h evs v h' => choice_content blank defaultable ss h evs v h') h evs v h' ->
    reads_element blank des h evs v h'.
  Proof.
    intros EL ND H. unfold reads_element.
    assert (DI : de_init des = enum_init_element from_start defaultable ms) by (cbn [de_init enum_deser]; rewrite EL; reflexivity).
    rewrite DI.
    assert (EMPTY : forall vals h, defaultable = true -> (exists s, hd_error ss = Some s /\ settled s [] vals) ->
      finish_state EInit h = Ok ((0, vals), h)).
    { intros vals h0 DF (s & HS & ST). cbn [enum_finish_state]. rewrite DF. pose proof OK as OK'.
      destruct OK' as [|m s' ms' ss' MO _]; [discriminate HS|]. injection HS as ->. exact (default_ok m s vals h0 MO ST). }
    destruct H as [(n & attrs & h0 & a & h1 & body & n' & h2 & -> & E0 & FS & CC & E3)|
                   (n & attrs & h0 & a & h1 & -> & E0 & FS & CC)]; destruct v as [i vals].
    - eapply begins_more; [exact E0|cbn [enum_init_element]; rewrite FS; reflexivity|exact I|].
      destruct CC as [(s & more & ES & (p & F & _ & ST) & (te & TI & TT) & NF)|(DF & SP & EI & SE)]; cbn [fst snd] in *.
      + destruct (Forall2_nth_r _ _ _ _ _ OK ES) as (m & EM & MO).
        destruct (follows_run1 blank s m _ _ _ _ _ MO F [] no_labels eq_refl) as (got' & more' & -> & R).
        destruct ST as (_ & _ & ST). specialize (ST 0 s eq_refl). cbn [nth] in ST.
        destruct (run1_spaces s _ _ _ _ _ _ _ R) as [NT|(sp & e & evs1 & rest & h3 & h4 & v & m1 & h5 & -> & SP & E1 & OC & _ & RM & R1)].
        { rewrite (NT te TI) in TT. discriminate TT. }
        assert (T : is_tag e = true).
        { pose proof MO as (_ & IM & _). destruct (proj1 (IM true) _ _ _ _ _ OC) as ((e' & r' & EE & T) & _). injection EE as <- <-. exact T. }
        destruct (first_item i m s h3 e evs1 v m1 h5 h4 EM ES MO OC E1) as (art1 & FD & _ & AA).
        { intros k t Et Nk. exact (NF sp e _ h3 h4 k t eq_refl SP T E1 Et Nk). }
        destruct (run_var i m s EM MO _ _ _ _ _ _ _ R1 art1 AA) as (art' & G & AA'); [congruence|].
        assert (FD1 : feeds blank des EInit h1 (sp ++ (e :: evs1) ++ rest) art' h2).
        { pose proof (feeds_gone _ _ _ _ _ _ _ _ _ _ FD G) as FG.
          pose proof (spaces_fed _ _ _ SP) as SF. destruct sp as [|x sp].
          - apply fed_none in SF as [_ <-]. exact FG.
          - eapply feeds_app; [|exact FG]. apply fed_feeds; [exact SF|discriminate]. }
        destruct AA' as [(st & -> & AT)|(_ & L)]; [|unfold leaves in L; rewrite EL in L; discriminate L].
        destruct (end_at i m s EM MO _ _ _ vals h' n' AT ST) as (ev & any & NX & EV). rewrite EL in EV.
        eapply feeds_app; [exact FD1|]. eapply feeds_last; [exact E3|exact NX|rewrite EV; exact I|discriminate].
      + subst i. eapply fed_then; [exact (spaces_fed _ _ _ SP)|exact E3| | |discriminate].
        * cbn [de_next enum_deser]. unfold enum_next, enum_fuel. cbn [enum_loop is_end]. rewrite (EMPTY vals h' DF SE). cbn [obind].
          rewrite EL. reflexivity.
        * exact I.
    - destruct CC as [(s & more & ES & RP & (te & [] & TT) & NF)|(DF & SP & EI & SE)]; cbn [fst snd] in *. subst i.
      apply spaces_none in SP as ->.
      eapply (begins_one blank des _ h (EEmpty n attrs) h0 (AData (0, vals)) DNone false h'); [exact E0| |exact I|discriminate].
      cbn [enum_init_element]. rewrite FS. cbn [obind]. unfold enum_finish. rewrite (EMPTY vals h' DF SE). reflexivity.
  Qed.
End Choice.
