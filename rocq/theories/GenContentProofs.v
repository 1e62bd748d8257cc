(** Proofs about the generated deserializers: types whose content is another type. *)
From Verif Require Import GenModel GenSpec GenProofs GenChoiceProofs.
From Coq Require Import Lia.
Local Open Scope list_scope.

Lemma consumed_break blank ev : consumed blank ev -> consumed blank (into_break ev).
Proof. destruct ev; exact (fun H => H). Qed.

Section Content.
  Variable blank : bytes -> option bool.
  Context {V D A : Type}.
  Variable from_start : dhelper -> bytes -> list attr -> outcome kind (A * dhelper).
  Variables (elem : bool) (no_attrs : A).
  Variables (m : member V D) (s : slot V).
  Hypothesis MO : member_ok blank m s.
  Hypothesis KG : m_kind m = KindGroup.

  Notation cdes := (cdes (V:=V) (D:=D) (A:=A)).
  Notation cstate := (cstate (D:=D)).
  Notation loop := (content_loop (A:=A) elem m).
  Notation des := (cdes_deser from_start elem no_attrs m).

  Definition cleaves (n : nat) : bool := negb elem && negb (roomb (s_max s) n).

  Lemma start_init any h e : member_start m any h e = de_init (m_deser m) h e.
  Proof. unfold member_start. rewrite KG. reflexivity. Qed.

  Lemma croom_max vals (v : V) : room s (length vals) ->
    match s_max s with Bounded n => length (vals ++ [v]) <= n | Unbounded => True end.
  Proof. unfold room. destruct (s_max s); [auto|]. rewrite app_length. cbn. lia. Qed.

  Lemma cmulti (vals : list V) : room s (length vals) ->
    ((m_occ m = OSingle \/ m_occ m = OOptional) /\ vals = [] /\ s_max s = Bounded 1) \/
    match m_occ m with ODynamic | OStatic _ => True | _ => False end.
  Proof. exact (multi_or blank m s MO vals). Qed.

  Lemma cstore vals v : room s (length vals) -> content_store m vals v = Ok (vals ++ [v]).
  Proof.
    intros R. unfold content_store. destruct (cmulti vals R) as [([E|E] & -> & _)|MU]; [rewrite E; reflexivity|rewrite E; reflexivity|].
    destruct (m_occ m); try reflexivity; elim MU.
  Qed.

  Lemma cfinish got vals h : settled s got vals ->
    match s_max s with Bounded n => length got <= n | Unbounded => True end ->
    content_finish_vals m got h = Ok (vals, h).
  Proof.
    intros ST B. pose proof (finish_field_ok blank m s got vals h MO ST B) as E.
    unfold content_finish_vals, finish_field in *. destruct (m_occ m); try exact E.
    - destruct (m_default m) as [df|]; [exact E|]. unfold finish_element in E. destruct got; cbn in *; [discriminate E|exact E].
    - destruct (m_min m) as [|mn] eqn:EMN; [|exact E]. injection E as ->.
      destruct (m_default m) as [df|]; [reflexivity|]. unfold finish_vec. cbn. reflexivity.
  Qed.

  Lemma cfull_min vals (v : V) : room s (length vals) -> roomb (s_max s) (length (vals ++ [v])) = false ->
    s_min s <= length (vals ++ [v]).
  Proof. exact (full_min blank m s MO vals v). Qed.

  Definition c_after (a : A) (vals : list V) (art : artifact V D) : artifact (A * list V) cdes :=
    match art with
    | ANone => ANone
    | AData v =>
        if cleaves (length (vals ++ [v])) then AData (a, vals ++ [v])
        else ADes (CDes a (vals ++ [v]) KNext)
    | ADes d => ADes (CDes a vals (KAt d))
    end.

  Lemma chandle_none_elem vals ev any fb h : elem = true ->
    content_handle elem m vals (DOut ANone ev any) (Some fb) h = Ok (from_event_end ev any, (vals, fb, None, h)).
  Proof. intros EL. unfold content_handle. cbn [o_art o_ev o_any]. rewrite EL. reflexivity. Qed.

  Lemma chandle_none_group vals ev any fb h : elem = false ->
    content_handle elem m vals (DOut ANone ev any) (Some fb) h =
    if Nat.eqb (m_min m) 0 || is_some (m_default m) then Ok (HBreak ev any, (vals, fb, None, h))
    else match m_occ m with
         | OSingle | OOptional => Ok (HBreak ev any, (vals, KInit, Some fb, h))
         | _ => if Nat.ltb (length vals + match fb with KAt _ => 1 | _ => 0 end) (m_min m)
                then Ok (return_to_root ev any, (vals, fb, None, h))
                else Ok (HBreak ev any, (vals, fb, None, h))
         end.
  Proof. intros EL. unfold content_handle. cbn [o_art o_ev o_any]. rewrite EL. reflexivity. Qed.

  (** The fallback is finished first. *)
  Definition cgotten (vals : list V) (fb : option cstate) (got : list V) : Prop :=
    forall h, match fb with Some st => content_finish_state m vals st h | None => Ok (vals, h) end = Ok (got, h).

  Lemma chandle_data vals fb got v ev any h : cgotten vals fb got -> room s (length got) ->
    content_handle elem m vals (DOut (AData v) ev any) fb h =
    if cleaves (length (got ++ [v])) then Ok (HBreak ev any, (got ++ [v], KDone, None, h))
    else Ok (from_event ev any, (got ++ [v], KNext, None, h)).
  Proof.
    intros G R. unfold content_handle. cbn [o_art o_ev o_any]. rewrite (G h). cbn [obind]. rewrite (cstore _ _ R). cbn [obind].
    unfold cleaves. destruct elem; [reflexivity|]. cbn [negb andb]. pose proof MO as (_ & _ & _ & EX & _).
    destruct (cmulti got R) as [([E|E] & -> & E1)|MU].
    - rewrite E, E1. reflexivity.
    - rewrite E, E1. reflexivity.
    - rewrite EX. unfold roomb. destruct (m_occ m); try (elim MU; fail);
        (destruct (m_max m) as [|mx]; [reflexivity|]; destruct (Nat.ltb (length (got ++ [v])) mx); reflexivity).
  Qed.

  Lemma chandle_des vals fb got d ev any h : cgotten vals fb got -> room s (length got) ->
    content_handle elem m vals (DOut (ADes d) ev any) fb h =
    if roomb (s_max s) (S (length got)) then Ok (from_event ev any, (got, KNext, Some (KAt d), h))
    else Ok (if elem then from_event_end ev any else HBreak ev any, (got, KAt d, None, h)).
  Proof.
    intros G R. unfold content_handle. cbn [o_art o_ev o_any]. rewrite (G h). cbn [obind].
    pose proof MO as (_ & _ & _ & EX & _).
    destruct (cmulti got R) as [([E|E] & -> & E1)|MU].
    - rewrite E, E1. reflexivity.
    - rewrite E, E1. reflexivity.
    - rewrite EX. unfold roomb. destruct (m_occ m); try (elim MU; fail);
        (destruct (m_max m) as [|mx]; [reflexivity|];
         replace (Nat.ltb (S (length got)) mx) with (Nat.ltb (length got) (mx - 1));
         [reflexivity|destruct (Nat.ltb_spec (S (length got)) mx), (Nat.ltb_spec (length got) (mx - 1)); try reflexivity; lia]).
  Qed.

  Lemma done_data (a : A) got v ev any h : room s (length got) -> cleaves (length (got ++ [v])) = true ->
    content_end elem m a (got ++ [v], KDone, None, h) ev any = Ok (DOut (AData (a, got ++ [v])) ev any, h).
  Proof.
    intros R L. unfold cleaves in L. apply Bool.andb_true_iff in L as [L1 L2]. apply Bool.negb_true_iff in L1, L2.
    pose proof MO as (_ & _ & _ & EX & _).
    assert (need_done elem m = true) as ND.
    { unfold need_done. rewrite L1, <- EX. unfold roomb in L2. destruct (s_max s); [discriminate L2|reflexivity]. }
    unfold content_end. rewrite ND. unfold cdes_finish. cbn [cd_vals cd_state cd_attrs content_finish_state obind].
    rewrite (cfinish (got ++ [v]) (got ++ [v]) h); [reflexivity| |exact (croom_max _ _ R)].
    left. split; [exact (cfull_min _ _ R L2)|reflexivity].
  Qed.

  Lemma chandled (a : A) vals fb got art ev any h : cgotten vals fb got -> room s (length got) -> consumed blank ev -> art <> ANone ->
    exists hs, content_handle elem m vals (DOut art ev any) fb h = Ok (HBreak ev any, hs) /\
      content_end elem m a hs ev any = Ok (DOut (c_after a got art) ev any, h).
  Proof.
    intros G R C N. destruct art as [|v|d]; [elim N; reflexivity| |].
    - rewrite (chandle_data _ _ _ _ _ _ _ G R), (consumed_from _ _ any C). cbn [c_after].
      destruct (cleaves (length (got ++ [v]))) eqn:L; eexists; (split; [reflexivity|]).
      + exact (done_data a got v ev any h R L).
      + unfold content_end. destruct (need_done elem m); reflexivity.
    - rewrite (chandle_des _ _ _ _ _ _ _ G R), (consumed_from _ _ any C), (consumed_from_end _ _ any C). cbn [c_after].
      replace (if elem then HBreak ev any else HBreak ev any) with (HBreak ev any) by (destruct elem; reflexivity).
      destruct (roomb (s_max s) (S (length got))); eexists; (split; [reflexivity|]);
        unfold content_end; destruct (need_done elem m); reflexivity.
  Qed.

  (** What follows a handler. *)
  Definition cgo (fuel : nat) (a : A) (r : outcome kind (hout * chstate (V:=V) (D:=D))) : dresult (A * list V) cdes :=
    let* (ho, hs') := r in
    match ho with
    | HContinue e' _ => loop fuel a hs' e'
    | HBreak de x => content_end elem m a hs' de x
    end.

  Lemma loop_at fuel (a : A) vals d fb h e :
    loop (S fuel) a (vals, KAt d, fb, h) e =
    let* (out, h1) := de_next (m_deser m) d h e in cgo fuel a (content_handle elem m vals out fb h1).
  Proof. reflexivity. Qed.

  Lemma loop_end fuel (a : A) vals st fb h e : st = KInit \/ st = KNext -> is_end e = true ->
    loop (S fuel) a (vals, st, fb, h) e =
    let* (vs, h1) := content_finish_vals m vals h in
    Ok (DOut (AData (a, vs)) (if elem then DNone else DContinue e) false, h1).
  Proof. intros [-> | ->] E; cbn [content_loop]; rewrite E; reflexivity. Qed.

  Lemma loop_start fuel (a : A) vals st fb h e : st = KInit \/ st = KNext -> is_end e = false ->
    loop (S fuel) a (vals, st, fb, h) e =
    let* (out, h1) := de_init (m_deser m) h e in cgo fuel a (content_handle elem m vals out (get_or_insert fb st) h1).
  Proof. intros [-> | ->] E; cbn [content_loop]; rewrite E; reflexivity. Qed.

  Lemma next_loop st h e : exists fuel, de_next des st h e = loop (S (S fuel)) (cd_attrs st) (cd_vals st, cd_state st, None, h) e.
  Proof. exists 2. reflexivity. Qed.

  Lemma c_run fuel (a : A) vals d h e art ev any h' : room s (length vals) -> consumed blank ev -> art <> ANone ->
    de_next (m_deser m) d h e = Ok (DOut art ev any, h') ->
    loop (S fuel) a (vals, KAt d, None, h) e = Ok (DOut (c_after a vals art) ev any, h').
  Proof.
    intros R C N E. rewrite loop_at, E. cbn [obind].
    destruct (chandled a vals None vals art ev any h' (fun _ => eq_refl) R C N) as (hs & -> & EE). exact EE.
  Qed.

  Lemma feed_content (a : A) vals d h evs art h' : room s (length vals) ->
    feeds blank (m_deser m) d h evs art h' ->
    feeds blank des (CDes a vals (KAt d)) h evs (c_after a vals art) h'.
  Proof.
    intros R F. induction F as [d h e h1 art ev any h2 E1 E2 C N|d h e h1 d' ev any h2 evs art h3 E1 E2 C F IH].
    - eapply feeds_last; [exact E1| |exact C|].
      + destruct (next_loop (CDes a vals (KAt d)) h1 e) as (fuel & ->). cbn [cd_attrs cd_vals cd_state]. eapply c_run; eassumption.
      + destruct art; [elim N; reflexivity| |discriminate]. cbn [c_after]. destruct (cleaves _); discriminate.
    - eapply feeds_step; [exact E1| |exact C|exact IH].
      destruct (next_loop (CDes a vals (KAt d)) h1 e) as (fuel & ->). cbn [cd_attrs cd_vals cd_state].
      apply (c_run _ a vals d h1 e (ADes d') ev any h2 R C); [discriminate|exact E2].
  Qed.

  Inductive at_content (a : A) : list V -> labels -> cdes -> Prop :=
  | ac_init : at_content a [] no_labels (CDes a [] KInit)
  | ac_run vals v more d : room s (length vals) -> done_with blank (m_deser m) v more d ->
      at_content a (vals ++ [v]) more (CDes a vals (KAt d))
  | ac_rest got more : got <> [] -> match s_max s with Bounded n => length got <= n | Unbounded => True end ->
      cleaves (length got) = false -> at_content a got more (CDes a got KNext).

  Definition at_cart (a : A) (got : list V) (more : labels) (art : artifact (A * list V) cdes) : Prop :=
    (exists st, art = ADes st /\ at_content a got more st /\ cd_state st <> KInit) \/
    (art = AData (a, got) /\ cleaves (length got) = true).

  Lemma after_content (a : A) vals art v more : room s (length vals) -> complete blank (m_deser m) v more art ->
    at_cart a (vals ++ [v]) more (c_after a vals art).
  Proof.
    intros R [->|(d & -> & DW)].
    - cbn [c_after]. destruct (cleaves (length (vals ++ [v]))) eqn:L; [right; auto|left].
      eexists; split; [reflexivity|]. split; [|discriminate]. apply ac_rest; [destruct vals; discriminate|apply croom_max; exact R|exact L].
    - left. eexists; split; [reflexivity|]. split; [|discriminate]. apply ac_run; assumption.
  Qed.

  Lemma c_attrs (a : A) got more st : at_content a got more st -> cd_attrs st = a.
  Proof. destruct 1; reflexivity. Qed.

  Lemma c_bounded (a : A) got more st : at_content a got more st ->
    match s_max s with Bounded n => length got <= n | Unbounded => True end.
  Proof.
    intros [|vals v mo d R DW|g mo NE B L]; [destruct (s_max s); [exact I|cbn; lia]|apply croom_max; exact R|exact B].
  Qed.

  (** A tag the last occurrence does not want: the content is asked to start again. *)
  Lemma c_refused (a : A) got more st h e : at_content a got more st -> is_tag e = true -> ~ fits h e more ->
    room s (length got) ->
    exists vals fb, cgotten vals (Some fb) got /\ (fb = KInit <-> got = []) /\
      (match fb with KInit | KNext => vals = got | KAt d => exists v, got = vals ++ [v] | _ => False end) /\
      forall fuel, loop (S (S fuel)) a (cd_vals st, cd_state st, None, h) e =
       let* (out, h1) := de_init (m_deser m) h e in
       cgo (match cd_state st with KAt _ => fuel | _ => S fuel end) a (content_handle elem m vals out (Some fb) h1).
  Proof.
    intros AT T NF RM. destruct AT as [|vals v more d R DW|got more NE B L].
    - exists [], KInit. split; [intros h0; reflexivity|]. split; [tauto|]. split; [reflexivity|].
      intros fuel. cbn [cd_vals cd_state]. rewrite loop_start by (auto || exact (tag_not_end _ T)). reflexivity.
    - destruct DW as (inv & ID & DW). destruct (DW d ID) as (_ & _ & RF & _).
      destruct (RF h e T NF) as (art & x & NX & CASES).
      rewrite app_length, Nat.add_comm in RM. cbn [length Nat.add] in RM.
      assert (RB : roomb (s_max s) (S (length vals)) = true) by (apply roomb_iff; exact RM).
      assert (G0 : cgotten vals None vals) by (intros h0; reflexivity).
      destruct CASES as [->|(d' & -> & FI)].
      + exists (vals ++ [v]), KNext. split; [intros h0; reflexivity|].
        split; [split; [discriminate|destruct vals; discriminate]|]. split; [reflexivity|].
        intros fuel. cbn [cd_vals cd_state]. 
        replace (loop (S (S fuel)) a (vals, KAt d, None, h) e) with (loop (S fuel) a (vals ++ [v], KNext, None, h) e).
        * rewrite loop_start by (auto || exact (tag_not_end _ T)). reflexivity.
        * symmetry. rewrite loop_at, NX. cbn [obind]. rewrite (chandle_data _ _ _ _ _ _ _ G0 R). unfold cleaves.
          rewrite app_length, Nat.add_comm. cbn [length Nat.add]. rewrite RB, Bool.andb_comm. cbn [negb andb].
          rewrite (from_event_tag _ _ T). reflexivity.
      + exists vals, (KAt d'). split.
        { intros h0. cbn [content_finish_state]. rewrite FI. cbn [obind]. rewrite (cstore _ _ R). reflexivity. }
        split; [split; [discriminate|destruct vals; discriminate]|]. split; [exists v; reflexivity|].
        intros fuel. cbn [cd_vals cd_state].
        replace (loop (S (S fuel)) a (vals, KAt d, None, h) e) with (loop (S fuel) a (vals, KNext, Some (KAt d'), h) e).
        * rewrite loop_start by (auto || exact (tag_not_end _ T)). reflexivity.
        * symmetry. rewrite loop_at, NX. cbn [obind]. rewrite (chandle_des _ _ _ _ _ _ _ G0 R), RB.
          rewrite (from_event_tag _ _ T). reflexivity.
    - exists got, KNext. split; [intros h0; reflexivity|].
      split; [split; [discriminate|intros ->; elim NE; reflexivity]|]. split; [reflexivity|].
      intros fuel. cbn [cd_vals cd_state]. rewrite loop_start by (auto || exact (tag_not_end _ T)). reflexivity.
  Qed.

  Lemma item_content (a : A) got more st h e evs v more' h1 h0 : at_content a got more st ->
    l_occ (s_lang s) h (e :: evs) v more' h1 -> dh_event h e = Some h0 -> ~ fits h0 e more -> room s (length got) ->
    exists art', feeds blank des st h (e :: evs) art' h1 /\ at_cart a (got ++ [v]) more' art' /\
      (st = cdes_new a -> a = no_attrs -> begins blank des (cdes_init_group elem no_attrs m) h (e :: evs) art' h1).
  Proof.
    intros AT OC E0 NF RM. pose proof MO as (_ & IM & _).
    destruct (proj1 (IM true) _ _ _ _ _ OC) as ((e' & r' & EE & T) & _ & art & BG & CP). injection EE as <- <-.
    exists (c_after a got art). 
    assert (TAG : forall art0 ev x h2, member_start m true h0 e = Ok (DOut art0 ev x, h2) ->
      consumed blank ev -> art0 <> ANone -> de_next des st h0 e = Ok (DOut (c_after a got art0) ev x, h2)).
    { intros art0 ev x h2 MS C N. rewrite start_init in MS. destruct (next_loop st h0 e) as (fuel & ->).
      rewrite (c_attrs _ _ _ _ AT).
      destruct (c_refused a got more st h0 e AT T NF RM) as (vals & fb & G & _ & _ & EQ). rewrite EQ, MS. cbn [obind].
      destruct (chandled a vals (Some fb) got art0 ev x h2 G RM C N) as (hs & -> & EE). exact EE. }
    assert (GRP : st = cdes_new a -> a = no_attrs -> forall art0 ev x h2, de_next des st h0 e = Ok (DOut (c_after a got art0) ev x, h2) -> art0 <> ANone ->
      cdes_init_group elem no_attrs m h0 e = Ok (DOut (c_after a got art0) ev x, h2)).
    { intros -> -> art0 ev x h2 E NA. unfold cdes_init_group. cbn [de_next cdes_deser] in E. rewrite E. cbn [obind o_art o_ev o_any].
      destruct art0 as [|w|d]; [elim NA; reflexivity| |reflexivity]. cbn [c_after]. destruct (cleaves _); reflexivity. }
    inversion BG as [h3 e3 h4 art0 ev x h5 E1 MS C N E2 E3|h3 e3 h4 d0 ev x h5 evs0 art0 h6 E1 MS C FD E2 E3]; subst.
    - rewrite E0 in E1. injection E1 as <-.
      assert (NV : c_after a got art <> ANone) by (destruct art; [elim N; reflexivity| |discriminate]; cbn [c_after]; destruct (cleaves _); discriminate).
      split; [eapply feeds_last; [exact E0|exact (TAG _ _ _ _ MS C N)|exact C|exact NV]|]. split; [apply after_content; assumption|].
      intros X Y. eapply begins_one; [exact E0|exact (GRP X Y _ _ _ _ (TAG _ _ _ _ MS C N) N)|exact C|exact NV].
    - rewrite E0 in E1. injection E1 as <-.
      assert (N : ADes (T:=V) d0 <> ANone) by discriminate.
      pose proof (feed_content a got d0 h5 evs art h1 RM FD) as FV.
      split; [eapply feeds_step; [exact E0|exact (TAG _ _ _ _ MS C N)|exact C|exact FV]|]. split; [apply after_content; assumption|].
      intros X Y. eapply begins_more; [exact E0|exact (GRP X Y _ _ _ _ (TAG _ _ _ _ MS C N) N)|exact C|exact FV].
  Qed.

  Lemma space_content (a : A) got more st h e : at_content a got more st -> ignorable blank e ->
    exists st' ev any, de_next des st h e = Ok (DOut (ADes st') ev any, h) /\ consumed blank ev /\ at_content a got more st' /\
      (cd_state st = KInit -> st' = st).
  Proof.
    intros AT IG. destruct (next_loop st h e) as (fuel & ->).
    assert (IGN : exists ev any, de_init (m_deser m) h e = Ok (DOut ANone ev any, h) /\ consumed blank ev).
    { pose proof MO as (FI & _). rewrite KG in FI. exact (FI h e IG). }
    destruct IGN as (ev0 & any0 & DI & C0). destruct (ignorable_kind _ _ IG) as [T E].
    assert (REST : forall st0 vals, (st0 = KInit /\ vals = [] \/ st0 = KNext /\ (elem = true \/ match m_occ m with ODynamic | OStatic _ => True | _ => False end)) ->
      exists ev any, loop (S (S fuel)) a (vals, st0, None, h) e = Ok (DOut (ADes (CDes a vals st0)) ev any, h) /\ consumed blank ev).
    { intros st0 vals H.
      assert (EQ : loop (S (S fuel)) a (vals, st0, None, h) e = cgo (S fuel) a (content_handle elem m vals (DOut ANone ev0 any0) (Some st0) h)).
      { rewrite loop_start; [|destruct H as [[-> _]|[-> _]]; auto|exact E]. rewrite DI. reflexivity. }
      rewrite EQ. clear EQ.
      assert (CE : forall fb, fb = None \/ fb = Some st0 -> content_end elem m a (vals, st0, fb, h) = fun ev any => Ok (DOut (ADes (CDes a vals st0)) ev any, h)).
      { intros fb [-> | ->]; unfold content_end; destruct H as [[-> _]|[-> _]]; destruct (need_done elem m); reflexivity. }
      destruct (Bool.bool_dec elem true) as [EL|EL].
      - rewrite (chandle_none_elem _ _ _ _ _ EL), (consumed_from_end _ _ any0 C0). cbn [cgo obind]. rewrite CE by auto. eauto.
      - apply Bool.not_true_is_false in EL. rewrite (chandle_none_group _ _ _ _ _ EL).
        destruct (Nat.eqb (m_min m) 0 || is_some (m_default m)); [cbn [cgo obind]; rewrite CE by auto; eauto|].
        assert (LST : exists ev any, cgo (S fuel) a (if Nat.ltb (length vals + match st0 with KAt _ => 1 | _ => 0 end) (m_min m)
            then Ok (return_to_root ev0 any0, (vals, st0, None, h)) else Ok (HBreak ev0 any0, (vals, st0, None, h))) =
            Ok (DOut (ADes (CDes a vals st0)) ev any, h) /\ consumed blank ev).
        { destruct (Nat.ltb _ _); unfold return_to_root; cbn [cgo obind]; rewrite CE by auto; eexists; eexists; (split; [reflexivity|]);
            [apply consumed_break|]; exact C0. }
        assert (SNG : st0 = KInit -> exists ev any, content_end elem m a (vals, KInit, Some st0, h) ev0 any0 = Ok (DOut (ADes (CDes a vals st0)) ev any, h) /\ consumed blank ev).
        { intros ->. rewrite CE by auto. eauto. }
        destruct (m_occ m) eqn:EO; try exact LST; try (cbn [cgo obind]; apply SNG; destruct H as [[-> _]|[_ [X|X]]]; [reflexivity|congruence|elim X]). }
    destruct AT as [|vals v more d R DW|got more NE B L].
    - exists (CDes a [] KInit). cbn [cd_attrs cd_vals cd_state].
      destruct (REST KInit []) as (ev & any & -> & C); [left; auto|]. exists ev, any. split; [reflexivity|]. split; [exact C|]. split; [apply ac_init|auto].
    - destruct DW as (inv & ID & DW). destruct (DW d ID) as (_ & _ & _ & SP).
      destruct (SP h e IG) as (d' & ev & any & NX & C & ID'). exists (CDes a vals (KAt d')), ev, any.
      split; [|split; [exact C|split; [apply ac_run; [exact R|exists inv; auto]|discriminate]]].
      cbn [cd_attrs cd_vals cd_state]. apply (c_run _ a vals d h e (ADes d') ev any h R C); [discriminate|exact NX].
    - exists (CDes a got KNext). cbn [cd_attrs cd_vals cd_state].
      destruct (REST KNext got) as (ev & any & -> & C).
      + right. split; [reflexivity|]. destruct elem eqn:EL; [left; reflexivity|right].
        unfold cleaves in L. rewrite EL in L. cbn in L. apply Bool.negb_false_iff, roomb_iff in L.
        destruct (cmulti got L) as [(_ & X & _)|MU]; [elim (NE X)|exact MU].
      + exists ev, any. split; [reflexivity|]. split; [exact C|]. split; [apply ac_rest; assumption|discriminate].
  Qed.

  Lemma run_content (a : A) got more h evs got' more' h' : run1 blank s got more h evs got' more' h' ->
    forall art, (exists st, art = ADes st /\ at_content a got more st) \/ (art = AData (a, got) /\ cleaves (length got) = true) ->
    (elem = false -> evs = [] \/ ends_with_tag evs) ->
    exists art', gone blank des art h evs art' h' /\
      ((exists st, art' = ADes st /\ at_content a got' more' st) \/ (art' = AData (a, got') /\ cleaves (length got') = true)).
  Proof.
    induction 1 as [got more h|got more h e h1 evs got' more' h2 IG E1 R IH|got more h e evs h0 v more1 h1 rest got' more' h2 OC E0 NF RM R IH];
      intros art AA ET.
    - exists art. split; [apply gone_nil|exact AA].
    - assert (NS : cleaves (length got) = true -> False).
      { intros L. unfold cleaves in L. destruct elem; [discriminate L|]. destruct (ET eq_refl) as [X|X]; [discriminate X|].
        cbn in L. assert (NR : ~ room s (length got)) by (intros Y; apply roomb_iff in Y; rewrite Y in L; discriminate L).
        destruct (run1_full _ _ _ _ _ _ _ _ _ R NR) as (F & _). eapply ends_not_spaces; [exact X|]. constructor; eassumption. }
      destruct AA as [(st & -> & AT)|(_ & L)]; [|elim (NS L)].
      destruct (space_content a got more st h1 e AT IG) as (st' & ev & any & NX & C & AT' & _).
      destruct (IH (ADes st') (or_introl (ex_intro _ st' (conj eq_refl AT')))) as (art' & G & AA').
      { intros EL. destruct (ET EL) as [X|X]; [discriminate X|]. exact (ends_app [e] evs X). }
      exists art'. split; [|exact AA']. right. exists st. split; [reflexivity|].
      change (e :: evs) with ([e] ++ evs). eapply feeds_gone; [|exact G]. eapply feeds_last; [exact E1|exact NX|exact C|discriminate].
    - assert (NL : cleaves (length got) = false).
      { unfold cleaves. apply roomb_iff in RM. rewrite RM. apply Bool.andb_false_r. }
      destruct AA as [(st & -> & AT)|(_ & L)]; [|congruence].
      destruct (item_content a got more st h e evs v more1 h1 h0 AT OC E0 NF RM) as (art1 & F1 & AA1 & _).
      destruct (IH art1) as (art' & G & AA').
      { destruct AA1 as [(st1 & X & Y & _)|X]; [left; exists st1; auto|right; exact X]. }
      { intros EL. destruct (ET EL) as [X|X]; [discriminate X|]. exact (ends_app (e :: evs) rest X). }
      exists art'. split; [|exact AA']. right. exists st. split; [reflexivity|].
      exact (feeds_gone _ _ _ _ (e :: evs) _ _ _ _ _ F1 G).
  Qed.

  Lemma finish_content (a : A) got more st vals h : at_content a got more st -> settled s got vals ->
    cdes_finish m st h = Ok ((a, vals), h).
  Proof.
    intros AT ST. pose proof (c_bounded _ _ _ _ AT) as B. unfold cdes_finish. destruct AT as [|vs v more d R DW|got more NE B' L];
      cbn [cd_vals cd_state cd_attrs content_finish_state obind].
    - rewrite (cfinish _ _ h ST B). reflexivity.
    - destruct DW as (inv & ID & DW). destruct (DW d ID) as (FI & _). rewrite FI. cbn [obind]. rewrite (cstore _ _ R). cbn [obind].
      rewrite (cfinish _ _ h ST B). reflexivity.
    - rewrite (cfinish _ _ h ST B). reflexivity.
  Qed.

  Lemma end_content (a : A) got more st vals h n : at_content a got more st -> settled s got vals ->
    exists ev any, de_next des st h (EEnd n) = Ok (DOut (AData (a, vals)) ev any, h) /\
      ev = if elem then DNone else DContinue (EEnd n).
  Proof.
    intros AT ST. pose proof (c_bounded _ _ _ _ AT) as B. destruct (next_loop st h (EEnd n)) as (fuel & ->). destruct AT as [|vs v more d R DW|got more NE B' L];
      cbn [cd_vals cd_state cd_attrs].
    - rewrite loop_end by auto. rewrite (cfinish _ _ h ST B). cbn [obind]. eexists; eexists; split; reflexivity.
    - destruct DW as (inv & ID & DW). destruct (DW d ID) as (_ & EN & _). destruct (EN h n) as (x & NX).
      rewrite loop_at, NX. cbn [obind]. rewrite (chandle_data vs None vs v _ _ h (fun _ => eq_refl) R).
      destruct (cleaves (length (vs ++ [v]))) eqn:L; cbn [cgo obind].
      + rewrite (done_data a vs v _ _ h R L). unfold cleaves in L. apply Bool.andb_true_iff in L as [L1 L2].
        apply Bool.negb_true_iff in L1, L2. rewrite L1. rewrite (settled_full s _ _ ST (cfull_min _ _ R L2)). eexists; eexists; split; reflexivity.
      + cbn [from_event is_tag is_end orb]. rewrite loop_end by auto. rewrite (cfinish _ _ h ST B). cbn [obind]. eexists; eexists; split; reflexivity.
    - rewrite loop_end by auto. rewrite (cfinish _ _ h ST B). cbn [obind]. eexists; eexists; split; reflexivity.
  Qed.

  (** Not a list that has to have elements. *)
  Notation can_refuse := (can_refuse m).

  Lemma refuse_content (a : A) got more st vals h e : elem = false -> at_content a got more st -> got <> [] ->
    settled s got vals -> is_tag e = true ->
    ~ fits h e more -> (room s (length got) -> ~ fits h e (l_first (s_lang s))) ->
    exists art any, de_next des st h e = Ok (DOut art (DContinue e) any, h) /\
      (art = AData (a, vals) \/ exists st', art = ADes st' /\ forall h, cdes_finish m st' h = Ok ((a, vals), h)).
  Proof.
    intros EL AT NG ST T NF NR. pose proof (c_bounded _ _ _ _ AT) as B.
    destruct (roomb (s_max s) (length got)) eqn:RB.
    - assert (RM : room s (length got)) by (apply roomb_iff; exact RB).
      destruct (c_refused a got more st h e AT T NF RM) as (vs & fb & G & FBI & FBV & EQ).
      pose proof MO as (_ & IM & _ & EX & SM & DF). destruct (IM true) as [_ RF]. destruct (RF h e T (NR RM)) as (x & RE).
      rewrite start_init in RE. destruct (next_loop st h e) as (fuel & ->). rewrite (c_attrs _ _ _ _ AT), EQ, RE. cbn [obind].
      assert (MU : match m_occ m with ODynamic | OStatic _ => True | _ => False end).
      { destruct (cmulti got RM) as [(_ & E & _)|MU]; [elim (NG E)|exact MU]. }
      assert (LEN : length vs + match fb with KAt _ => 1 | _ => 0 end = length got).
      { destruct fb; try (elim FBV; fail); try (subst vs; lia). destruct FBV as (v & ->). rewrite app_length. reflexivity. }
      assert (EH : content_handle elem m vs (DOut ANone (DContinue e) x) (Some fb) h = Ok (HBreak (DContinue e) x, (vs, fb, None, h))).
      { unfold content_handle. cbn [o_art o_ev o_any]. rewrite EL.
        destruct (Nat.eqb (m_min m) 0 || is_some (m_default m)) eqn:DQ; [reflexivity|]. rewrite LEN.
        replace (Nat.ltb (length got) (m_min m)) with false; [destruct (m_occ m); try reflexivity; elim MU|].
        symmetry. apply Nat.ltb_ge. apply Bool.orb_false_iff in DQ as [_ DQ].
        destruct ST as [[L _]|(v & D0 & _)]; [rewrite SM in L; destruct (m_occ m); try exact L; elim MU|].
        rewrite D0 in DF. destruct DF as [DF|DF]; [rewrite DF in SM; destruct (m_occ m); try (elim MU; fail); rewrite <- SM; apply Nat.le_0_l|].
        destruct (m_default m); [discriminate DQ|elim DF]. }
      rewrite EH. cbn [cgo obind]. eexists; eexists. split.
      + unfold content_end. replace (match need_done elem m, fb with true, KDone => _ | _, _ => _ end) with
          (Ok (E:=kind) (DOut (ADes (T:=A * list V) (CDes a vs fb)) (DContinue e) x, h)); [reflexivity|].
        destruct (need_done elem m); [|reflexivity]. destruct fb; try reflexivity. elim FBV.
      + right. eexists; split; [reflexivity|]. intros h0. unfold cdes_finish. cbn [cd_vals cd_state cd_attrs].
        rewrite (G h0). cbn [obind]. rewrite (cfinish _ _ h0 ST B). reflexivity.
    - assert (LV : cleaves (length got) = true) by (unfold cleaves; rewrite EL, RB; reflexivity).
      destruct AT as [|vs v more d R DW|got more NE B' L]; [elim NG; reflexivity| |congruence].
      destruct DW as (inv & ID & DW). destruct (DW d ID) as (_ & _ & RF & _).
      destruct (RF h e T NF) as (art & x & NX & CASES).
      rewrite (settled_full s _ _ ST (cfull_min _ _ R RB)) in *.
      assert (G0 : cgotten vs None vs) by (intros h0; reflexivity).
      destruct (next_loop (CDes a vs (KAt d)) h e) as (fuel & ->). cbn [cd_attrs cd_vals cd_state]. rewrite loop_at, NX. cbn [obind].
      destruct CASES as [->|(d' & -> & FI)].
      + rewrite (chandle_data _ _ _ _ _ _ _ G0 R), LV. cbn [cgo obind]. rewrite (done_data a vs v _ _ h R LV).
        eexists; eexists. split; [reflexivity|left; reflexivity].
      + rewrite (chandle_des _ _ _ _ _ _ _ G0 R).
        pose proof RB as RB'. rewrite app_length, Nat.add_comm in RB'. cbn [length Nat.add] in RB'. rewrite RB', EL. cbn [cgo obind].
        exists (ADes (CDes a vs (KAt d'))), x. split.
        * unfold content_end. destruct (need_done elem m); reflexivity.
        * right. eexists; split; [reflexivity|]. intros h0. unfold cdes_finish. cbn [cd_vals cd_state cd_attrs content_finish_state].
          rewrite FI. cbn [obind]. rewrite (cstore _ _ R). cbn [obind]. rewrite (cfinish _ _ h0 ST B).
          rewrite (settled_full s _ _ ST (cfull_min _ _ R RB)). reflexivity.
  Qed.

  Lemma refuse_new h e : elem = false -> can_refuse -> is_tag e = true -> ~ fits h e (l_first (s_lang s)) ->
    exists any, cdes_init_group elem no_attrs m h e = Ok (DOut ANone (DContinue e) any, h).
  Proof.
    intros EL CR T NF. pose proof MO as (_ & IM & _). destruct (IM true) as [_ RF]. destruct (RF h e T NF) as (x & RE).
    rewrite start_init in RE. exists x. unfold cdes_init_group.
    destruct (next_loop (cdes_new no_attrs) h e) as (fuel & EQ). cbn [de_next cdes_deser] in EQ. rewrite EQ.
    cbn [cdes_new cd_attrs cd_vals cd_state]. rewrite loop_start by (auto || exact (tag_not_end _ T)). cbn [get_or_insert]. rewrite RE. cbn [obind].
    rewrite (chandle_none_group _ _ _ _ _ EL).
    assert (CE : forall fb, fb = None \/ fb = Some KInit -> content_end elem m no_attrs (@nil V, KInit, fb, h) (DContinue e) x =
      Ok (DOut (ADes (CDes no_attrs [] KInit)) (DContinue e) x, h)).
    { intros fb [-> | ->]; unfold content_end; destruct (need_done elem m); reflexivity. }
    destruct (Nat.eqb (m_min m) 0 || is_some (m_default m)) eqn:DQ; [cbn [cgo obind]; rewrite CE by auto; reflexivity|].
    apply Bool.orb_false_iff in DQ as [D1 D2].
    destruct CR as [X|[X|[X|X]]].
    - rewrite X in D1. discriminate D1.
    - destruct (m_default m); [discriminate D2|elim X; reflexivity].
    - rewrite X. cbn [cgo obind]. rewrite CE by auto. reflexivity.
    - rewrite X. cbn [cgo obind]. rewrite CE by auto. reflexivity.
  Qed.

  Lemma done_content (a : A) got more st vals : elem = false -> at_content a got more st -> got <> [] -> settled s got vals ->
    done_with blank des (a, vals) (still_next [s] (0, [got], more)) st.
  Proof.
    intros EL AT NG ST. exists (at_content a got more). split; [exact AT|]. intros d AT0. split; [|split; [|split]].
    - intros h. exact (finish_content _ _ _ _ _ h AT0 ST).
    - intros h n. destruct (end_content _ _ _ _ _ h n AT0 ST) as (ev & any & E & EV).
      replace ev with (DContinue (EEnd n)) in E by (rewrite EV, EL; reflexivity). exists any. exact E.
    - intros h e T NS. apply (refuse_content a got more d vals h e EL AT0 NG ST T).
      + intros (l & Hl & Hc). apply NS. exists l. split; [left; exact Hl|exact Hc].
      + intros RM (l & Hl & Hc). apply NS. exists l. split; [|exact Hc]. right; left. exists s. auto.
    - intros h e IG. destruct (space_content _ _ _ _ h e AT0 IG) as (st' & ev & any & E & C & AT' & _). exists st', ev, any. auto.
  Qed.

  Theorem content_group : elem = false -> can_refuse ->
    implements blank des (cdes_init_group elem no_attrs m) (content_lang blank no_attrs s).
  Proof.
    intros EL CR. split; [|intros h e T NF; exact (refuse_new h e EL CR T NF)].
    intros h evs [va vals] more h' (BT & ET & EA & (p & F & -> & ST)). cbn [fst snd] in *. subst va.
    destruct (follows_run1 blank s m _ _ _ _ _ MO F [] no_labels eq_refl) as (got' & more' & -> & R).
    assert (EL' : negb elem = true) by (rewrite EL; reflexivity). clear EL.
    destruct BT as (e & rest0 & EE & T). inversion R as [| got0 more0 h0 e0 h1 evs0 g1 m1 h2 IG E1 R1|got0 more0 h0 e0 evs1 h1 v m1 h2 rest g1 m2 h3 OC E0 NM RM R1]; subst.
    + discriminate.
    + match goal with H : _ :: _ = _ :: _ |- _ => injection H as -> -> end. destruct (ignorable_kind _ _ IG) as [TT _]. congruence.
    + match goal with H : _ :: _ = _ :: _ |- _ => injection H as -> <- end.
      assert (EL : elem = false) by (destruct elem; [discriminate EL'|reflexivity]).
      destruct (item_content no_attrs [] no_labels (cdes_new no_attrs) h e evs1 v m1 h2 h1 (ac_init no_attrs) OC E0 NM RM) as (art1 & _ & AA & BG).
      specialize (BG eq_refl eq_refl).
      destruct (run_content no_attrs _ _ _ _ _ _ _ R1 art1) as (art' & G & AA').
      { destruct AA as [(st1 & X & Y & _)|X]; [left; exists st1; auto|right; exact X]. }
      { intros _. exact (ends_app (e :: evs1) rest ET). }
      split; [exists e, (evs1 ++ rest); auto|]. split.
      { intros e9 r9 h9 E9 D9. injection E9 as <- <-. rewrite E0 in D9. injection D9 as <-.
        pose proof MO as (_ & IM & _). destruct (proj1 (IM true) _ _ _ _ _ OC) as (_ & FT & _). exact (FT e evs1 h1 eq_refl E0). }
      exists art'. split; [exact (begins_gone blank _ _ _ (e :: evs1) _ _ _ _ _ BG G)|].
      destruct ST as (_ & _ & ST). specialize (ST 0 s eq_refl). cbn [nth] in ST.
      assert (NG : got' <> []).
      { clear - R1. assert (forall got more h evs got' more' h', run1 blank s got more h evs got' more' h' -> got <> [] -> got' <> []) as H.
        { induction 1; auto. intros _. apply IHrun1. destruct got; discriminate. }
        apply (H _ _ _ _ _ _ _ R1). discriminate. }
      destruct AA' as [(st & -> & AT)|(-> & L)].
      * right. exists st. split; [reflexivity|]. exact (done_content no_attrs got' more' st vals EL AT NG ST).
      * left. f_equal. f_equal. symmetry. apply (settled_full s got' vals ST).
        unfold cleaves in L. rewrite EL in L. cbn in L. apply Bool.negb_true_iff in L.
        pose proof MO as (_ & _ & B & EX & SM & _). unfold roomb in L. rewrite EX in L. destruct (m_max m) as [|n]; [discriminate L|].
        apply Nat.ltb_ge in L. rewrite SM. destruct (m_occ m); lia.
  Qed.

  Theorem content_ignores : ignores blank (cdes_init_group elem no_attrs m).
  Proof.
    intros h e IG. destruct (space_content no_attrs [] no_labels (cdes_new no_attrs) h e (ac_init no_attrs) IG) as (st' & ev & any & E & C & _ & X).
    rewrite (X eq_refl) in E. exists ev, any. split; [|exact C].
    unfold cdes_init_group. cbn [de_next cdes_deser] in E. rewrite E. reflexivity.
  Qed.

  Theorem content_element h evs v h' : elem = true ->
    element_of from_start (fun a h evs v h' => fst v = a /\ exists more, repeated blank s h evs (snd v) more h') h evs v h' ->
    reads_element blank des h evs v h'.
  Proof.
    intros EL H. unfold reads_element.
    assert (DI : de_init des = cdes_init_element from_start m) by (cbn [de_init cdes_deser]; rewrite EL; reflexivity).
    rewrite DI.
    destruct H as [(n & attrs & h0 & a & h1 & body & n' & h2 & -> & E0 & FS & (EA & more & p & F & _ & ST) & E3)|
                   (n & attrs & h0 & a & h1 & -> & E0 & FS & (EA & more & p & F & _ & ST))]; destruct v as [va vals]; cbn [fst snd] in *; subst va;
      destruct (follows_run1 blank s m _ _ _ _ _ MO F [] no_labels eq_refl) as (got' & more' & -> & R);
      destruct ST as (_ & _ & ST); specialize (ST 0 s eq_refl); cbn [nth] in ST.
    - eapply begins_more; [exact E0|cbn [cdes_init_element]; rewrite FS; reflexivity|exact I|].
      destruct (run_content a _ _ _ _ _ _ _ R (ADes (cdes_new a)) (or_introl (ex_intro _ _ (conj eq_refl (ac_init a))))) as (art' & G & AA); [congruence|].
      destruct AA as [(st & -> & AT)|(_ & L)]; [|unfold cleaves in L; rewrite EL in L; discriminate L].
      destruct (end_content a _ _ _ vals h' n' AT ST) as (ev & any & NX & EV). rewrite EL in EV.
      assert (CV : consumed blank ev) by (rewrite EV; exact I).
      assert (ND : AData (D:=cdes) (a, vals) <> ANone) by discriminate.
      destruct (gone_ends blank _ _ _ _ _ _ _ _ _ _ _ _ G E3 NX CV ND) as [(X & _)|(d & X & Y)].
      + destruct body; discriminate X.
      + injection X as <-. exact Y.
    - assert (HE : got' = [] /\ h1 = h') by (inversion R; auto). destruct HE as [-> ->].
      eapply (begins_one blank des _ h (EEmpty n attrs) h0 (AData (a, vals)) DNone false h'); [exact E0| |exact I|discriminate].
      cbn [cdes_init_element]. rewrite FS. cbn [obind].
      unfold cdes_new. rewrite (finish_content a _ _ _ vals h' (ac_init a) ST). reflexivity.
  Qed.
End Content.
