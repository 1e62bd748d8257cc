From Verif Require Import NodeModel NodeSpec.

Lemma mark_get_set i j m s : mark_get i (l_marks (mark_set j m s)) = if tident_eq_dec i j then Some m else mark_get i (l_marks s).
Proof. reflexivity. Qed.

Section Order.
  Variable c : node_cache.
  Notation done s i := (mark_get i (l_marks s) = Some Done).
  Notation visited s i := (mark_get i (l_marks s) = Some Visited).
  Definition gen_b (i : tident) : bool :=
    match node_get i c with Some e => generates (e_kind e) | None => false end.

  Lemma gen_b_spec i : gen_b i = true <-> generated c i.
  Proof.
    unfold gen_b, generated. destruct (node_get i c) as [e|]; split; intros H.
    - exists e; auto.
    - destruct H as (e' & [= <-] & H). exact H.
    - discriminate.
    - destruct H as (e' & H & _). discriminate.
  Qed.

  (** The nodes that are done, in order. *)
  Record inv (s : listing) (ord : list tident) : Prop := {
    iv_done : forall i, done s i <-> In i ord;
    iv_nodup : NoDup ord;
    iv_order : forall pre i post j, ord = pre ++ i :: post -> needs c i j -> In j pre;
    iv_nodes : l_nodes s = filter gen_b ord }.

  Definition closed (s : listing) (i : tident) : Prop := forall j, needs c i j -> done s j.

  Lemma inv_closed s ord i : inv s ord -> done s i -> closed s i.
  Proof.
    intros I D j N. apply (iv_done _ _ I) in D. apply in_split in D. destruct D as (a & b & E).
    apply (iv_done _ _ I). rewrite E. apply in_app_iff. left. exact (iv_order _ _ I _ _ _ _ E N).
  Qed.

  Definition extends (s s' : listing) (ord ord' : list tident) : Prop :=
    (exists more, ord' = ord ++ more) /\ (forall i, visited s' i <-> visited s i).
  Lemma extends_refl s o : extends s s o o.
  Proof. split; [exists []; rewrite app_nil_r; reflexivity|tauto]. Qed.
  Lemma extends_trans s1 s2 s3 o1 o2 o3 : extends s1 s2 o1 o2 -> extends s2 s3 o2 o3 -> extends s1 s3 o1 o3.
  Proof.
    intros [(m1 & E1) V1] [(m2 & E2) V2]. split.
    - exists (m1 ++ m2). rewrite E2, E1, app_assoc. reflexivity.
    - intros i. rewrite V2. apply V1.
  Qed.
  Lemma extends_done s s' o o' i : inv s o -> inv s' o' -> extends s s' o o' -> done s i -> done s' i.
  Proof.
    intros I I' [(m & E) _] D. apply (iv_done _ _ I'). rewrite E. apply in_app_iff. left. apply (iv_done _ _ I), D.
  Qed.

  Lemma deps_ok visit me ds :
    (forall lazy i s s' o, visit lazy i s = Ok s' -> inv s o ->
       exists o', inv s' o' /\ extends s s' o o' /\ (lazy = false -> done s' i) /\ closed s' i) ->
    forall s s' o, visit_deps visit me ds s = Ok s' -> inv s o ->
    exists o', inv s' o' /\ extends s s' o o' /\
      (forall k j, In (k, Strong j) ds -> done s' j) /\ (forall k g, In (k, Lazy g) ds -> closed s' g).
  Proof.
    intros HV. induction ds as [|[k d] ds IH]; intros s s' o H I; cbn [visit_deps] in H.
    - injection H as <-. exists o. split; [auto|]. split; [apply extends_refl|]. split; intros ? ? [].
    - destruct d as [j|g|w].
      + destruct (visit false j s) as [s1|[]|] eqn:V; try discriminate.
        destruct (HV _ _ _ _ _ V I) as (o1 & I1 & E1 & D1 & _). destruct (IH _ _ _ H I1) as (o2 & I2 & E2 & D2 & C2).
        exists o2. split; [auto|]. split; [eapply extends_trans; eauto|]. split.
        * intros k' j' [[= <- <-]|X]; [|eauto]. eapply extends_done; [| |eassumption|]; eauto.
        * intros k' g' [X|X]; [discriminate|eauto].
      + destruct (visit true g s) as [s1|[]|] eqn:V; try discriminate.
        destruct (HV _ _ _ _ _ V I) as (o1 & I1 & E1 & _ & C1). destruct (IH _ _ _ H I1) as (o2 & I2 & E2 & D2 & C2).
        exists o2. split; [auto|]. split; [eapply extends_trans; eauto|]. split.
        * intros k' j' [X|X]; [discriminate|eauto].
        * intros k' g' [[= <- <-]|X]; [|eauto]. intros j N. eapply extends_done; [| |eassumption|]; eauto.
      + destruct (IH _ _ _ H I) as (o2 & I2 & E2 & D2 & C2). exists o2. split; [auto|]. split; [auto|].
        split; intros k' x [X|X]; try discriminate; eauto.
  Qed.

  Lemma inv_visit s o i : inv s o -> mark_get i (l_marks s) = None -> inv (mark_set i Visited s) o.
  Proof.
    intros [D N O L] M. split; auto. intros j. rewrite mark_get_set.
    destruct (tident_eq_dec j i) as [->|]; [|apply D]. split; [discriminate|].
    intros X. apply D in X. congruence.
  Qed.

  (** After the loop: the node is finished. *)
  Lemma inv_finish s o i nodes : inv s o -> ~ In i o -> closed s i ->
    nodes = (if gen_b i then l_nodes s ++ [i] else l_nodes s) ->
    inv (mark_set i Done (Listing nodes (l_marks s))) (o ++ [i]).
  Proof.
    intros [D N O L] NI CL ->. split.
    - intros j. rewrite mark_get_set. cbn [l_marks]. rewrite in_app_iff. cbn.
      destruct (tident_eq_dec j i) as [->|X]; [tauto|]. rewrite D. intuition congruence.
    - clear - N NI. induction o as [|a o IH]; cbn; [constructor; [intros []|constructor]|].
      inversion N; subst. constructor.
      + rewrite in_app_iff. cbn. cbn in NI. intuition.
      + apply IH; auto. cbn in NI. tauto.
    - intros pre k post j E H. destruct post as [|x post _] using rev_ind.
      + apply app_inj_tail in E. destruct E as [<- <-]. apply D, CL, H.
      + change (k :: post ++ [x]) with ((k :: post) ++ [x]) in E. rewrite app_assoc in E.
        apply app_inj_tail in E. destruct E as [E _]. eapply O; eauto.
    - cbn [l_nodes mark_set]. rewrite filter_app. cbn. destruct (gen_b i); rewrite L; [reflexivity|rewrite app_nil_r; reflexivity].
  Qed.

  Lemma visit_ok fuel : forall lazy i s s' o, visit_node c fuel lazy i s = Ok s' -> inv s o ->
    exists o', inv s' o' /\ extends s s' o o' /\ (lazy = false -> done s' i) /\ closed s' i.
  Proof.
    induction fuel as [|fuel IH]; intros lazy i s s' o H I; cbn [visit_node] in H; [discriminate|].
    destruct (mark_get i (l_marks s)) as [[]|] eqn:M; [discriminate| |].
    { injection H as <-. exists o. split; [auto|]. split; [apply extends_refl|]. split; [auto|].
      eapply inv_closed; eauto. }
    set (s1 := if lazy then s else mark_set i Visited s) in H.
    assert (I1 : inv s1 o) by (unfold s1; destruct lazy; [auto|apply inv_visit; auto]).
    assert (NI : ~ In i o) by (intros X; apply (iv_done _ _ I) in X; congruence).
    assert (V1 : forall j, visited s1 j <-> visited s j \/ (lazy = false /\ j = i)).
    { intros j. unfold s1. destruct lazy; [intuition discriminate|]. rewrite mark_get_set.
      destruct (tident_eq_dec j i) as [->|]; [tauto|intuition congruence]. }
    destruct (node_get i c) as [e|] eqn:G.
    - destruct (visit_deps (visit_node c fuel) i (e_deps e) s1) as [s2|k|] eqn:L; try discriminate.
      destruct (deps_ok _ i _ (fun lazy => IH lazy) _ _ _ L I1) as (o2 & I2 & [(m & E2) V2] & D2 & C2).
      assert (CL : closed s2 i).
      { intros j N. inversion N as [a b (e' & k & Ge & X)|a g b (e' & k & Ge & X) N']; subst.
        - rewrite G in Ge. injection Ge as <-. eauto.
        - rewrite G in Ge. injection Ge as <-. eapply C2; eauto. }
      destruct lazy; cbn [negb andb] in H.
      + injection H as <-. exists o2. split; [auto|]. split; [|split; [discriminate|auto]].
        split; [eauto|]. intros j. rewrite V2. unfold s1. tauto.
      + injection H as <-. exists (o2 ++ [i]).
        assert (NI2 : ~ In i o2).
        { intros X. apply (iv_done _ _ I2) in X. assert (Y : visited s2 i) by (apply V2, V1; auto). congruence. }
        split; [|split; [|split]].
        * replace (mark_set i Done _) with (mark_set i Done (Listing (if gen_b i then l_nodes s2 ++ [i] else l_nodes s2) (l_marks s2))).
          -- apply inv_finish; auto.
          -- unfold gen_b. rewrite G. destruct (generates (e_kind e)); reflexivity.
        * split; [exists (m ++ [i]); rewrite E2, app_assoc; reflexivity|].
          intros j. rewrite mark_get_set. replace (l_marks _) with (l_marks s2) by (destruct (generates (e_kind e)); reflexivity).
          destruct (tident_eq_dec j i) as [->|X].
          -- split; [discriminate|]. rewrite M. discriminate.
          -- rewrite V2, V1. intuition congruence.
        * intros _. rewrite mark_get_set. destruct (tident_eq_dec i i); congruence.
        * intros j N. rewrite mark_get_set. replace (l_marks _) with (l_marks s2) by (destruct (generates (e_kind e)); reflexivity).
          destruct (tident_eq_dec j i); [reflexivity|]. apply CL, N.
    - assert (CL : closed s1 i).
      { intros j N. inversion N as [a b (e' & k & Ge & X)|a g b (e' & k & Ge & X) N']; subst; congruence. }
      destruct lazy; cbn in H; injection H as <-.
      + exists o. split; [auto|]. split; [apply extends_refl|]. split; [discriminate|auto].
      + exists (o ++ [i]). split; [|split; [|split]].
        * replace (mark_set i Done s1) with (mark_set i Done (Listing (if gen_b i then l_nodes s1 ++ [i] else l_nodes s1) (l_marks s1))).
          -- apply inv_finish; auto.
          -- unfold gen_b. rewrite G. reflexivity.
        * split; [eauto|]. intros j. rewrite mark_get_set. destruct (tident_eq_dec j i) as [->|X].
          -- split; [discriminate|]. rewrite M. discriminate.
          -- rewrite V1. intuition congruence.
        * intros _. rewrite mark_get_set. destruct (tident_eq_dec i i); congruence.
        * intros j N. rewrite mark_get_set. destruct (tident_eq_dec j i); [reflexivity|]. apply CL, N.
  Qed.

  Lemma visit_all_ok fuel is : forall s s' o, visit_all c fuel is s = Ok s' -> inv s o ->
    exists o', inv s' o' /\ extends s s' o o' /\ forall i, In i is -> done s' i.
  Proof.
    induction is as [|i is IH]; intros s s' o H I; cbn [visit_all] in H.
    - injection H as <-. exists o. split; [auto|]. split; [apply extends_refl|]. intros ? [].
    - assert (K : exists s1 o1, visit_all c fuel is s1 = Ok s' /\ inv s1 o1 /\ extends s s1 o o1 /\ done s1 i).
      { destruct (mark_get i (l_marks s)) as [[]|] eqn:M.
        - destruct (visit_node c fuel false i s) as [s1|k|] eqn:V; try discriminate.
          destruct (visit_ok _ _ _ _ _ _ V I) as (o1 & I1 & E1 & D1 & _). exists s1, o1. auto.
        - exists s, o. split; [auto|]. split; [auto|]. split; [apply extends_refl|auto].
        - destruct (visit_node c fuel false i s) as [s1|k|] eqn:V; try discriminate.
          destruct (visit_ok _ _ _ _ _ _ V I) as (o1 & I1 & E1 & D1 & _). exists s1, o1. auto. }
      destruct K as (s1 & o1 & H1 & I1 & E1 & D1). destruct (IH _ _ _ H1 I1) as (o2 & I2 & E2 & D2).
      exists o2. split; [auto|]. split; [eapply extends_trans; eauto|].
      intros j [<-|X]; [exact (extends_done _ _ _ _ _ I1 I2 E2 D1)|auto].
  Qed.

  Lemma inv_empty : inv (Listing [] []) [].
  Proof.
    split; cbn; auto.
    - intros i. split; [discriminate|intros []].
    - constructor.
    - intros pre i post j E. destruct pre; discriminate.
  Qed.

  Lemma node_get_in i e : node_get i c = Some e -> In i (map fst c).
  Proof.
    induction c as [|[i' e'] c' IH]; cbn; [discriminate|].
    destruct (tident_eq_dec i i') as [->|]; [auto|]. intros H. right. auto.
  Qed.

  Lemma list_spec fuel l : create_node_list c fuel = Ok l ->
    exists ord, l = filter gen_b ord /\ NoDup ord /\ (forall i, In i (map fst c) -> In i ord) /\
      (forall pre i post j, ord = pre ++ i :: post -> needs c i j -> In j pre).
  Proof.
    unfold create_node_list. destruct (visit_all c fuel (map fst c) (Listing [] [])) as [s|k|] eqn:V; try discriminate.
    intros [= <-]. destruct (visit_all_ok _ _ _ _ _ V inv_empty) as (o & I & _ & D).
    exists o. split; [apply (iv_nodes _ _ I)|]. split; [apply (iv_nodup _ _ I)|]. split; [|apply (iv_order _ _ I)].
    intros i X. apply (iv_done _ _ I), D, X.
  Qed.

  Lemma filter_split {A} (f : A -> bool) l pre x post : filter f l = pre ++ x :: post ->
    exists a b, l = a ++ x :: b /\ pre = filter f a /\ post = filter f b.
  Proof.
    revert pre. induction l as [|y l IH]; intros pre H; cbn in H.
    - destruct pre; discriminate.
    - destruct (f y) eqn:F.
      + destruct pre as [|p pre]; cbn in H.
        * injection H as -> <-. exists [], l. auto.
        * injection H as -> H. destruct (IH _ H) as (a & b & -> & -> & ->). exists (p :: a), b. cbn. rewrite F. auto.
      + destruct (IH _ H) as (a & b & -> & -> & ->). exists (y :: a), b. cbn. rewrite F. auto.
  Qed.

  Lemma list_order fuel l pre i post j : create_node_list c fuel = Ok l -> l = pre ++ i :: post ->
    needs c i j -> generated c j -> In j pre.
  Proof.
    intros H E N G. destruct (list_spec _ _ H) as (ord & L & ND & _ & O). rewrite L in E.
    destruct (filter_split _ _ _ _ _ E) as (a & b & Eo & -> & _). apply filter_In. split; [|apply gen_b_spec, G].
    eapply O; eauto.
  Qed.
  Lemma list_complete fuel l : create_node_list c fuel = Ok l ->
    NoDup l /\ forall i, In i l <-> generated c i.
  Proof.
    intros H. destruct (list_spec _ _ H) as (ord & -> & ND & K & _). split; [apply NoDup_filter, ND|].
    intros i. rewrite filter_In, gen_b_spec. split; [tauto|]. intros G. split; [|auto]. apply K.
    destruct G as (e & G & _). eapply node_get_in; eauto.
  Qed.

  (** * Cycles *)

  (** A set of nodes each of which has an edge into the set. *)
  Variable C : tident -> Prop.
  Hypothesis C_edge : forall i, C i -> exists j, C j /\ edge c i j.

  Lemma no_member fuel : forall lazy i s s', visit_node c fuel lazy i s = Ok s' ->
    (forall j, C j -> ~ done s j) -> ~ C i /\ (forall j, C j -> ~ done s' j).
  Proof.
    induction fuel as [|fuel IH]; intros lazy i s s' H F; cbn [visit_node] in H; [discriminate|].
    destruct (mark_get i (l_marks s)) as [[]|] eqn:M; [discriminate| |].
    { injection H as <-. split; [|auto]. intros X. exact (F _ X M). }
    set (s1 := if lazy then s else mark_set i Visited s) in H.
    assert (F1 : forall j, C j -> ~ done s1 j).
    { intros j X. unfold s1. destruct lazy; [auto|]. rewrite mark_get_set. destruct (tident_eq_dec j i); [discriminate|auto]. }
    assert (L : forall me ds t t', visit_deps (visit_node c fuel) me ds t = Ok t' -> (forall j, C j -> ~ done t j) ->
      (forall j, C j -> ~ done t' j) /\ (forall k j, In (k, Strong j) ds \/ In (k, Lazy j) ds -> ~ C j)).
    { intros me. induction ds as [|[k d] ds IHd]; intros t t' X Ft; cbn [visit_deps] in X.
      - injection X as <-. split; [auto|]. intros ? ? [[]|[]].
      - destruct d as [j|g|w].
        + destruct (visit_node c fuel false j t) as [t1|[]|] eqn:V; try discriminate.
          destruct (IH _ _ _ _ V Ft) as [Nj Ft1]. destruct (IHd _ _ X Ft1) as [Ft2 Q]. split; [auto|].
          intros k' j' [[[= <- <-]|Y]|[Y|Y]]; try discriminate; auto; eapply Q; eauto.
        + destruct (visit_node c fuel true g t) as [t1|[]|] eqn:V; try discriminate.
          destruct (IH _ _ _ _ V Ft) as [Nj Ft1]. destruct (IHd _ _ X Ft1) as [Ft2 Q]. split; [auto|].
          intros k' j' [[Y|Y]|[[= <- <-]|Y]]; try discriminate; auto; eapply Q; eauto.
        + destruct (IHd _ _ X Ft) as [Ft2 Q]. split; [auto|].
          intros k' j' [[Y|Y]|[Y|Y]]; try discriminate; eapply Q; eauto. }
    destruct (node_get i c) as [e|] eqn:G.
    - destruct (visit_deps (visit_node c fuel) i (e_deps e) s1) as [s2|k|] eqn:X; try discriminate.
      destruct (L _ _ _ _ X F1) as [F2 Q].
      assert (NC : ~ C i).
      { intros Ci. destruct (C_edge _ Ci) as (j & Cj & [(e' & k & Ge & Y)|(e' & k & Ge & Y)]);
          rewrite G in Ge; injection Ge as <-; eapply Q; eauto. }
      split; [exact NC|]. intros j Cj. destruct lazy; cbn [negb andb] in H; injection H as <-; [auto|].
      rewrite mark_get_set. destruct (tident_eq_dec j i) as [->|]; [tauto|].
      destruct (generates (e_kind e)); apply F2, Cj.
    - assert (NC : ~ C i).
      { intros Ci. destruct (C_edge _ Ci) as (j & Cj & [(e' & k & Ge & Y)|(e' & k & Ge & Y)]); congruence. }
      split; [exact NC|]. intros j Cj. destruct lazy; cbn in H; injection H as <-; [auto|].
      rewrite mark_get_set. destruct (tident_eq_dec j i) as [->|]; [tauto|auto].
  Qed.

  Lemma no_member_all fuel is : forall s s', visit_all c fuel is s = Ok s' -> (forall j, C j -> ~ done s j) ->
    forall i, In i is -> ~ C i.
  Proof.
    induction is as [|i is IH]; intros s s' H F j X; [destruct X|]. cbn [visit_all] in H.
    destruct (mark_get i (l_marks s)) as [[]|] eqn:M.
    - destruct (visit_node c fuel false i s) as [s1|k|] eqn:V; try discriminate.
      destruct (no_member _ _ _ _ _ V F) as [N F1]. destruct X as [<-|X]; [auto|eapply IH; eauto].
    - destruct X as [<-|X]; [intros Y; exact (F _ Y M)|eapply IH; eauto].
    - destruct (visit_node c fuel false i s) as [s1|k|] eqn:V; try discriminate.
      destruct (no_member _ _ _ _ _ V F) as [N F1]. destruct X as [<-|X]; [auto|eapply IH; eauto].
  Qed.
  Lemma no_member_list fuel l i : create_node_list c fuel = Ok l -> ~ C i.
  Proof.
    unfold create_node_list. destruct (visit_all c fuel (map fst c) (Listing [] [])) as [s|k|] eqn:V; try discriminate.
    intros _ Ci. assert (F : forall j, C j -> ~ done (Listing [] []) j) by (cbn; discriminate).
    apply (no_member_all _ _ _ _ V F i); [|exact Ci].
    destruct (C_edge _ Ci) as (j & _ & [(e & k & G & _)|(e & k & G & _)]); eapply node_get_in; eauto.
  Qed.
End Order.

Lemma steps_snoc {A} (R : A -> A -> Prop) a b d : steps R a b -> R b d -> steps R a d.
Proof. induction 1 as [a b H|a b e H S IH]; intros X; (eapply steps_more; [exact H|]); auto using steps_one. Qed.
Lemma steps_trans {A} (R : A -> A -> Prop) a b d : steps R a b -> steps R b d -> steps R a d.
Proof. induction 1 as [a b H|a b e H S IH]; intros X; eapply steps_more; eauto. Qed.

Lemma cycle_not_ok c fuel l i : create_node_list c fuel = Ok l -> ~ steps (edge c) i i.
Proof.
  intros H S. refine (no_member_list c (fun j => steps (edge c) j i) _ fuel l i H S).
  intros j Sj. inversion Sj; subst; eauto.
Qed.

Section Sound.
  Variable c : node_cache.
  Notation visited s i := (mark_get i (l_marks s) = Some Visited).

  Lemma visited_kept fuel : forall lazy i s s', visit_node c fuel lazy i s = Ok s' ->
    forall j, visited s' j -> visited s j.
  Proof.
    induction fuel as [|fuel IH]; intros lazy i s s' H; cbn [visit_node] in H; [discriminate|].
    destruct (mark_get i (l_marks s)) as [[]|] eqn:M; [discriminate|injection H as <-; auto|].
    set (s1 := if lazy then s else mark_set i Visited s) in H.
    assert (V1 : forall j, visited s1 j -> visited s j \/ (lazy = false /\ j = i)).
    { intros j. unfold s1. destruct lazy; [auto|]. rewrite mark_get_set. destruct (tident_eq_dec j i); auto. }
    assert (L : forall me ds t t', visit_deps (visit_node c fuel) me ds t = Ok t' -> forall j, visited t' j -> visited t j).
    { intros me. induction ds as [|[k d] ds IHd]; intros t t' X; cbn [visit_deps] in X; [injection X as <-; auto|].
      destruct d as [j|g|w]; [| |eauto].
      - destruct (visit_node c fuel false j t) as [t1|[]|] eqn:V; try discriminate. intros; eapply IH; eauto.
      - destruct (visit_node c fuel true g t) as [t1|[]|] eqn:V; try discriminate. intros; eapply IH; eauto. }
    assert (K : forall s2, (forall j, visited s2 j -> visited s1 j) ->
      forall j, visited (if lazy then s2 else mark_set i Done s2) j -> visited s j).
    { intros s2 Q j. destruct lazy.
      - intros X. apply Q, V1 in X. destruct X as [X|[X _]]; [auto|discriminate].
      - rewrite mark_get_set. destruct (tident_eq_dec j i); [discriminate|]. intros X. apply Q, V1 in X. tauto. }
    destruct (node_get i c) as [e|].
    - destruct (visit_deps (visit_node c fuel) i (e_deps e) s1) as [s2|k|] eqn:X; try discriminate.
      intros j. injection H as <-. apply K. intros j'.
      destruct (negb lazy && generates (e_kind e)); cbn [l_marks]; eapply L; eauto.
    - intros j. injection H as <-. apply K. auto.
  Qed.

  Lemma deps_kept fuel me ds : forall t t', visit_deps (visit_node c fuel) me ds t = Ok t' -> forall j, visited t' j -> visited t j.
  Proof.
    induction ds as [|[k d] ds IHd]; intros t t' X; cbn [visit_deps] in X; [injection X as <-; auto|].
    destruct d as [j|g|w]; [| |eauto].
    - destruct (visit_node c fuel false j t) as [t1|[]|] eqn:V; try discriminate. intros; eapply visited_kept; eauto.
    - destruct (visit_node c fuel true g t) as [t1|[]|] eqn:V; try discriminate. intros; eapply visited_kept; eauto.
  Qed.

  Lemma circular_real fuel : forall lazy i s k, visit_node c fuel lazy i s = Err (CircularDependency k) ->
    (forall v, visited s v -> steps (edge c) v i) -> exists x, steps (edge c) x x.
  Proof.
    induction fuel as [|fuel IH]; intros lazy i s k H P; cbn [visit_node] in H; [discriminate|].
    destruct (mark_get i (l_marks s)) as [[]|] eqn:M; [exists i; auto|discriminate|].
    set (s1 := if lazy then s else mark_set i Visited s) in H.
    destruct (node_get i c) as [e|] eqn:G; [|destruct lazy; discriminate].
    destruct (visit_deps (visit_node c fuel) i (e_deps e) s1) as [s2|k'|] eqn:X; try discriminate.
    injection H as ->.
    assert (P1 : forall v j, visited s1 v -> edge c i j -> steps (edge c) v j).
    { intros v j V E. unfold s1 in V. destruct lazy.
      - eapply steps_snoc; eauto.
      - rewrite mark_get_set in V. destruct (tident_eq_dec v i) as [->|]; [apply steps_one, E|eapply steps_snoc; eauto]. }
    assert (ED : forall k0 j, In (k0, Strong j) (e_deps e) \/ In (k0, Lazy j) (e_deps e) -> edge c i j).
    { intros k0 j [Y|Y]; [left|right]; exists e, k0; auto. }
    clear G M. revert X ED P1. generalize s1. clear s1. induction (e_deps e) as [|[k0 d] ds IHd]; intros t X ED P1; cbn [visit_deps] in X; [discriminate|].
    assert (ED' : forall k0 j, In (k0, Strong j) ds \/ In (k0, Lazy j) ds -> edge c i j).
    { intros k1 j [Y|Y]; apply (ED k1); cbn; auto. }
    destruct d as [j|g|w].
    - assert (Ej : edge c i j) by (apply (ED k0); left; left; reflexivity).
      destruct (visit_node c fuel false j t) as [t1|[x|]|] eqn:V; try discriminate.
      + apply (IHd t1); auto. intros v j' Vv. apply P1. eapply visited_kept; eauto.
      + eapply IH; eauto.
    - assert (Ej : edge c i g) by (apply (ED k0); right; left; reflexivity).
      destruct (visit_node c fuel true g t) as [t1|[x|]|] eqn:V; try discriminate.
      + apply (IHd t1); auto. intros v j' Vv. apply P1. eapply visited_kept; eauto.
      + eapply IH; eauto.
    - apply (IHd t); auto.
  Qed.

  Lemma circular_list fuel k : create_node_list c fuel = Err (CircularDependency k) -> exists x, steps (edge c) x x.
  Proof.
    unfold create_node_list. destruct (visit_all c fuel (map fst c) (Listing [] [])) as [s|e|] eqn:V; try discriminate.
    intros [= ->]. revert V. assert (P : forall v, ~ visited (Listing [] []) v) by (cbn; discriminate).
    revert P. generalize (Listing [] []). induction (map fst c) as [|i is IH]; intros s P V; cbn [visit_all] in V; [discriminate|].
    destruct (mark_get i (l_marks s)) as [[]|] eqn:M.
    - destruct (P _ M).
    - eapply IH; eauto.
    - destruct (visit_node c fuel false i s) as [s1|e|] eqn:X; try discriminate.
      + apply (IH s1); auto. intros v Y. eapply visited_kept in Y; eauto. exact (P _ Y).
      + injection V as ->. eapply circular_real; eauto. intros v Y. destruct (P _ Y).
  Qed.

  (** The program itself never panics here. *)
  Lemma visit_no_panic fuel : forall lazy i s, visit_node c fuel lazy i s <> Panic.
  Proof.
    induction fuel as [|fuel IH]; intros lazy i s; cbn [visit_node]; [discriminate|].
    destruct (mark_get i (l_marks s)) as [[]|]; try discriminate.
    destruct (node_get i c) as [e|]; [|discriminate].
    assert (L : forall ds t, visit_deps (visit_node c fuel) i ds t <> Panic).
    { induction ds as [|[k d] ds IHd]; intros t; cbn [visit_deps]; [discriminate|].
      destruct d as [j|g|w]; [| |auto].
      - specialize (IH false j t). destruct (visit_node c fuel false j t) as [t1|[]|]; try discriminate; auto.
      - specialize (IH true g t). destruct (visit_node c fuel true g t) as [t1|[]|]; try discriminate; auto. }
    specialize (L (e_deps e) (if lazy then s else mark_set i Visited s)).
    destruct (visit_deps _ _ _ _); try discriminate; auto.
  Qed.

  (** * The recursion ends *)
  Hypothesis acyclic : no_lazy_cycle c.
  Definition free (s : listing) (i : tident) : bool := match mark_get i (l_marks s) with None => true | _ => false end.
  Definition unmarked (s : listing) : nat := length (filter (free s) (nodup tident_eq_dec (map fst c))).
  Definition keys : nat := length (nodup tident_eq_dec (map fst c)).

  (** A chain of groups, innermost first. *)
  Fixpoint lazy_path (p : list tident) : Prop :=
    match p with
    | [] => True
    | i :: q => match q with j :: _ => lazy_edge c j i | [] => True end /\ lazy_path q
    end.
  Lemma path_reach i p x : lazy_path (i :: p) -> In x p -> steps (lazy_edge c) x i.
  Proof.
    revert i. induction p as [|j p IH]; intros i [E L] X; [destruct X|].
    destruct X as [<-|X]; [apply steps_one, E|]. eapply steps_snoc; [apply (IH j L X)|exact E].
  Qed.
  Lemma path_nodup p : lazy_path p -> NoDup p.
  Proof.
    induction p as [|i p IH]; intros L; [constructor|]. constructor; [|apply IH, L].
    intros X. exact (acyclic _ (path_reach _ _ _ L X)).
  Qed.
  Lemma path_keys i p : lazy_path (i :: p) -> incl p (map fst c).
  Proof.
    revert i. induction p as [|j p IH]; intros i [E L] x X; [destruct X|].
    destruct X as [<-|X]; [|eapply IH; eauto]. destruct E as (e & k & G & _). eapply node_get_in; eauto.
  Qed.
  Lemma path_short i p : lazy_path (i :: p) -> In i (map fst c) -> S (length p) <= keys.
  Proof.
    intros L I. change (S (length p)) with (length (i :: p)). apply NoDup_incl_length; [apply path_nodup, L|].
    intros x X. apply nodup_In. destruct X as [<-|X]; [exact I|eapply path_keys; eauto].
  Qed.

  Lemma free_less s t : (forall i, free t i = true -> free s i = true) -> unmarked t <= unmarked s.
  Proof.
    intros H. unfold unmarked. induction (nodup tident_eq_dec (map fst c)) as [|x l IH]; cbn; [lia|].
    destruct (free t x) eqn:F; [rewrite (H _ F); cbn; lia|]. destruct (free s x); cbn; lia.
  Qed.
  Lemma free_strict s i : free s i = true -> In i (map fst c) -> unmarked (mark_set i Visited s) < unmarked s.
  Proof.
    intros F I. apply (nodup_In tident_eq_dec) in I. unfold unmarked.
    pose proof (NoDup_nodup tident_eq_dec (map fst c)) as N.
    revert N I. induction (nodup tident_eq_dec (map fst c)) as [|x l IH]; intros N I; [destruct I|].
    inversion N as [|? ? N1 N2]; subst. cbn [filter].
    assert (LE : forall l, length (filter (free (mark_set i Visited s)) l) <= length (filter (free s) l)).
    { clear. induction l as [|y l IH]; cbn; [lia|]. unfold free at 1. rewrite mark_get_set.
      destruct (tident_eq_dec y i); [destruct (free s y); cbn; lia|]. fold (free s y). destruct (free s y); cbn; lia. }
    unfold free at 1. rewrite mark_get_set. destruct (tident_eq_dec x i) as [->|X].
    - rewrite F. cbn. specialize (LE l). lia.
    - destruct I as [->|I]; [congruence|]. fold (free s x). specialize (IH N2 I). destruct (free s x); cbn; lia.
  Qed.

  Lemma visit_free fuel : forall lazy i s s', visit_node c fuel lazy i s = Ok s' -> forall j, free s' j = true -> free s j = true.
  Proof.
    induction fuel as [|fuel IH]; intros lazy i s s' H; cbn [visit_node] in H; [discriminate|].
    destruct (mark_get i (l_marks s)) as [[]|] eqn:M; [discriminate|injection H as <-; auto|].
    set (s1 := if lazy then s else mark_set i Visited s) in H.
    assert (Q : forall m t j, free (mark_set i m t) j = true -> free t j = true).
    { intros m t j. unfold free. rewrite mark_get_set. destruct (tident_eq_dec j i); [discriminate|auto]. }
    assert (V1 : forall j, free s1 j = true -> free s j = true).
    { intros j. unfold s1. destruct lazy; [auto|apply Q]. }
    assert (L : forall me ds t t', visit_deps (visit_node c fuel) me ds t = Ok t' -> forall j, free t' j = true -> free t j = true).
    { intros me. induction ds as [|[k d] ds IHd]; intros t t' X; cbn [visit_deps] in X; [injection X as <-; auto|].
      destruct d as [j|g|w]; [| |eauto].
      - destruct (visit_node c fuel false j t) as [t1|[]|] eqn:V; try discriminate. intros; eapply IH; eauto.
      - destruct (visit_node c fuel true g t) as [t1|[]|] eqn:V; try discriminate. intros; eapply IH; eauto. }
    destruct (node_get i c) as [e|].
    - destruct (visit_deps (visit_node c fuel) i (e_deps e) s1) as [s2|k|] eqn:X; try discriminate.
      injection H as <-. intros j F. apply V1. eapply L; [exact X|].
      destruct lazy; [|apply Q in F]; destruct (generates (e_kind e)); exact F.
    - injection H as <-. intros j F. apply V1. destruct lazy; [exact F|apply Q in F; exact F].
  Qed.

  Lemma visit_fuel fuel : forall (lazy : bool) i p s, lazy_path (i :: p) -> (lazy = false -> p = []) ->
    unmarked s * (keys + 2) + (if lazy then keys + 1 - length p else 0) < fuel -> visit_node c fuel lazy i s <> Err OutOfFuel.
  Proof.
    induction fuel as [|fuel IH]; intros lazy i p s L P0 F; [lia|]. cbn [visit_node].
    destruct (mark_get i (l_marks s)) as [[]|] eqn:M; try discriminate.
    destruct (node_get i c) as [e|] eqn:G; [|discriminate].
    set (s1 := if lazy then s else mark_set i Visited s).
    assert (Ik : In i (map fst c)) by (eapply node_get_in; eauto).
    pose proof (path_short _ _ L Ik) as PS.
    assert (U1 : unmarked s1 * (keys + 2) + (keys + 1 - length p) <= fuel /\
                 unmarked s1 * (keys + 2) < fuel).
    { unfold s1. destruct lazy; [split; lia|]. rewrite (P0 eq_refl) in *. cbn [length] in *.
      assert (unmarked (mark_set i Visited s) < unmarked s) by (apply free_strict; [unfold free; rewrite M; reflexivity|exact Ik]).
      split; nia. }
    destruct U1 as [UL US].
    assert (K : forall ds t, (forall k g, In (k, Lazy g) ds -> lazy_edge c i g) -> unmarked t <= unmarked s1 ->
      visit_deps (visit_node c fuel) i ds t <> Err OutOfFuel).
    { induction ds as [|[k d] ds IHd]; intros t ED U; cbn [visit_deps]; [discriminate|].
      destruct d as [j|g|w].
      - destruct (visit_node c fuel false j t) as [t1|[x|]|] eqn:V; try discriminate.
        + apply IHd; [intros; eapply ED; right; eauto|]. pose proof (free_less t t1 (visit_free _ _ _ _ _ V)). lia.
        + exfalso. revert V. apply (IH false j [] t); [split; cbn; auto|auto|]. nia.
      - assert (Eg : lazy_edge c i g) by (eapply ED; left; reflexivity).
        destruct (visit_node c fuel true g t) as [t1|[x|]|] eqn:V; try discriminate.
        + apply IHd; [intros; eapply ED; right; eauto|]. pose proof (free_less t t1 (visit_free _ _ _ _ _ V)). lia.
        + exfalso. revert V. apply (IH true g (i :: p) t); [split; auto|discriminate|]. cbn [length].
          assert (unmarked t * (keys + 2) <= unmarked s1 * (keys + 2)) by (apply Nat.mul_le_mono_r; lia). lia.
      - apply IHd; [intros; eapply ED; right; eauto|auto]. }
    specialize (K (e_deps e) s1 (fun k g X => ex_intro _ e (ex_intro _ k (conj G X))) (le_n _)).
    destruct (visit_deps (visit_node c fuel) i (e_deps e) s1) as [s2|k|] eqn:X; try discriminate. exact K.
  Qed.

  Lemma list_ends fuel : (keys + 1) * (keys + 2) <= fuel -> create_node_list c fuel <> Err OutOfFuel.
  Proof.
    intros F. unfold create_node_list.
    assert (K : forall is s, visit_all c fuel is s <> Err OutOfFuel).
    { induction is as [|i is IH]; intros s; cbn [visit_all]; [discriminate|].
      assert (V : visit_node c fuel false i s <> Err OutOfFuel).
      { apply (visit_fuel fuel false i [] s); [split; cbn; auto|auto|].
        assert (unmarked s <= keys); [|nia]. unfold unmarked, keys.
        induction (nodup tident_eq_dec (map fst c)) as [|x l IHl]; cbn; [lia|]. destruct (free s x); cbn; lia. }
      destruct (mark_get i (l_marks s)) as [[]|]; auto; destruct (visit_node c fuel false i s) as [s1|k|]; auto; discriminate. }
    specialize (K (map fst c) (Listing [] [])). destruct (visit_all _ _ _ _) as [s|k|]; try discriminate. intros [= ->]. congruence.
  Qed.
End Sound.

(** * From the schema to the graph *)
Section PartInd.
  Variable P : part -> Prop.
  Hypothesis Pref : forall k q, P (PRef k q).
  Hypothesis Pin : forall ps, Forall P ps -> P (PInside ps).
  Hypothesis Pinl : forall kd a i ps, Forall P ps -> P (PInline kd a i ps).
  Fixpoint part_ind' (x : part) : P x :=
    let all := fix all ps : Forall P ps := match ps with [] => Forall_nil _ | p :: ps' => Forall_cons _ (part_ind' p) (all ps') end in
    match x with
    | PRef k q => Pref k q
    | PInside ps => Pin ps (all ps)
    | PInline kd a i ps => Pinl kd a i ps (all ps)
    end.
End PartInd.

Fixpoint dep_get (k : dep_key) (l : list (dep_key * dependency)) : option dependency :=
  match l with
  | [] => None
  | (k', d) :: l' => if dep_key_eq_dec k k' then Some d else dep_get k l'
  end.
Lemma dep_get_insert k k' d l : dep_get k (dep_insert k' d l) = if dep_key_eq_dec k k' then Some d else dep_get k l.
Proof.
  induction l as [|[k0 d0] l IH]; cbn; [reflexivity|]. destruct (dep_key_eq_dec k' k0) as [->|N]; cbn.
  - destruct (dep_key_eq_dec k k0); reflexivity.
  - destruct (dep_key_eq_dec k k0) as [->|]; [destruct (dep_key_eq_dec k0 k'); congruence|exact IH].
Qed.
Lemma dep_get_in k d l : dep_get k l = Some d -> In (k, d) l.
Proof.
  induction l as [|[k0 d0] l IH]; cbn; [discriminate|]. destruct (dep_key_eq_dec k k0) as [->|]; [intros [= ->]; auto|auto].
Qed.
Lemma node_get_insert i i' e c : node_get i (node_insert i' e c) = if tident_eq_dec i i' then Some e else node_get i c.
Proof.
  induction c as [|[k0 d0] l IH]; cbn; [reflexivity|]. destruct (tident_eq_dec i' k0) as [->|N]; cbn.
  - destruct (tident_eq_dec i k0); reflexivity.
  - destruct (tident_eq_dec i k0) as [->|]; [destruct (tident_eq_dec k0 i'); congruence|exact IH].
Qed.

Section Collect.
  Variable resolve : tident -> qref -> ident_type -> option tident.
  Notation process := (process resolve).

  Fixpoint process_all (me : tident) (ps : list part) (s : collecting) : option collecting :=
    match ps with
    | [] => Some s
    | p :: ps' => match process me p s with Some s' => process_all me ps' s' | None => None end
    end.
  Lemma process_inside me ps s : process me (PInside ps) s = process_all me ps s.
  Proof.
    cbn. revert s. induction ps as [|p ps IH]; intros s; cbn; [reflexivity|]. destruct (process me p s); auto.
  Qed.
  Lemma process_inline me kd a i ps s : process me (PInline kd a i ps) s =
    match process_all i ps ([], snd s) with
    | Some (ds, c) =>
        Some (dep_insert (match kd with NElement => KInlineElement a | _ => KInlineSimpleType a end) (Weak i) (fst s),
              node_insert i (Entry kd ds) c)
    | None => None
    end.
  Proof.
    cbn. match goal with |- match ?a with _ => _ end = match ?b with _ => _ end => replace a with b; [reflexivity|] end.
    generalize ([] : list (dep_key * dependency), snd s).
    induction ps as [|p ps IH]; intros t; cbn; [reflexivity|]. destruct (process i p t); auto.
  Qed.

  (** What a list of references makes of the dependency of a name. *)
  Fixpoint told (me : tident) (l : list (ref_kind * qref)) (k : dep_key) (d : option dependency) : option dependency :=
    match l with
    | [] => d
    | (r, q) :: l' =>
        told me l' k (if dep_key_eq_dec k (KNamed (fst q) (ref_type r) (snd q))
                      then option_map (ref_dep r) (resolve me q (ref_type r)) else d)
    end.
  Lemma told_app me l l' k d : told me (l ++ l') k d = told me l' k (told me l k d).
  Proof. revert d. induction l as [|[r q] l IH]; intros d; cbn; auto. Qed.

  Lemma process_told me x : forall s s' n t q, process me x s = Some s' ->
    dep_get (KNamed n t q) (fst s') = told me (references x) (KNamed n t q) (dep_get (KNamed n t q) (fst s)).
  Proof.
    induction x as [r q0|ps IH|kd a i ps IH] using part_ind'; intros s s' n t q H.
    - cbn in H. cbn [references told]. destruct (resolve me q0 (ref_type r)) as [j|]; [|discriminate].
      injection H as <-. cbn [fst]. rewrite dep_get_insert. reflexivity.
    - rewrite process_inside in H. cbn [references]. revert s H. induction IH as [|p ps P F IHp]; intros s H; cbn in H.
      + injection H as <-. reflexivity.
      + destruct (process me p s) as [s1|] eqn:E; [|discriminate]. cbn [flat_map]. rewrite told_app, <- (P _ _ _ _ _ E). auto.
    - rewrite process_inline in H. destruct (process_all i ps ([], snd s)) as [[ds c]|]; [|discriminate].
      injection H as <-. cbn [fst references told]. rewrite dep_get_insert.
      destruct (dep_key_eq_dec _ _) as [E|]; [destruct kd; discriminate|reflexivity].
  Qed.

  Lemma told_last me x k q i : last_says x k q -> resolve me q (ref_type k) = Some i ->
    forall d, told me (references x) (KNamed (fst q) (ref_type k) (snd q)) d = Some (ref_dep k i).
  Proof.
    intros (a & b & E & A) R d. rewrite E, told_app. cbn [told].
    destruct (dep_key_eq_dec _ _) as [_|N]; [|congruence]. rewrite R. cbn [option_map]. clear E.
    revert A. induction b as [|[r q'] b IH]; intros A; cbn [told]; [reflexivity|].
    destruct (dep_key_eq_dec _ _) as [X|]; [|apply IH; intros; apply A; [right|]; auto].
    injection X as X1 X2 X3. assert (q' = q) by (destruct q, q'; cbn in *; congruence). subst q'.
    rewrite <- X2, R. cbn [option_map]. rewrite (A r (or_introl eq_refl) (eq_sym X2)). apply IH; intros; apply A; [right|]; auto.
  Qed.

  (** The nodes. *)
  Lemma kept x : forall me s s' j, process me x s = Some s' -> ~ In j (all_idents x) ->
    node_get j (snd s') = node_get j (snd s).
  Proof.
    induction x as [r q0|ps IH|kd a i ps IH] using part_ind'; intros me s s' j H N.
    - cbn in H. destruct (resolve me q0 (ref_type r)); [|discriminate]. injection H as <-. reflexivity.
    - rewrite process_inside in H. cbn [all_idents] in N. revert s H. induction IH as [|p ps P F IHp]; intros s H; cbn in H.
      + injection H as <-. reflexivity.
      + destruct (process me p s) as [s1|] eqn:E; [|discriminate]. cbn [flat_map] in N. rewrite in_app_iff in N.
        rewrite <- (P _ _ _ j E) by tauto. apply IHp; auto.
    - rewrite process_inline in H. destruct (process_all i ps ([], snd s)) as [[ds c]|] eqn:E; [|discriminate].
      injection H as <-. cbn [snd]. cbn [all_idents] in N. rewrite in_app_iff in N. cbn in N.
      rewrite node_get_insert. destruct (tident_eq_dec j i) as [->|]; [tauto|].
      change (node_get j (snd s)) with (node_get j (snd ([] : list (dep_key * dependency), snd s))).
      change c with (snd (ds, c)). revert E. generalize ([] : list (dep_key * dependency), snd s). generalize (ds, c).
      induction IH as [|p ps P F IHp]; intros t' t E; cbn in E.
      + injection E as <-. reflexivity.
      + destruct (process i p t) as [t1|] eqn:E1; [|discriminate]. cbn [flat_map] in N. rewrite in_app_iff in N.
        rewrite <- (P _ _ _ j E1) by tauto. apply IHp; tauto.
  Qed.
  Lemma kept_all ps : forall me s s' j, process_all me ps s = Some s' -> ~ In j (flat_map all_idents ps) ->
    node_get j (snd s') = node_get j (snd s).
  Proof. intros me s s' j H N. apply (kept (PInside ps) me); [rewrite process_inside; exact H|exact N]. Qed.

  Definition has_node (c : node_cache) (kd : node_kind) (i : tident) (x : part) : Prop :=
    exists c1 ds c2, process i x ([], c1) = Some (ds, c2) /\ node_get i c = Some (Entry kd ds).

  Lemma nodup_parts (A B : Type) (f : A -> list B) a l : NoDup (flat_map f (a :: l)) ->
    NoDup (f a) /\ NoDup (flat_map f l) /\ forall x, In x (f a) -> ~ In x (flat_map f l).
  Proof.
    cbn. induction (f a) as [|b r IH]; cbn; intros N; [split; [constructor|split; [exact N|intros x []]]|].
    inversion N as [|? ? N1 N2]; subst. destruct (IH N2) as (U & V & W). rewrite in_app_iff in N1.
    split; [constructor; tauto|]. split; [auto|]. intros x [<-|X]; [tauto|auto].
  Qed.

  Lemma inside_idents x kd i y : inside x kd i y -> In i (all_idents x).
  Proof.
    induction 1 as [kd a i ps|kd a i ps p kd' i' y I H IH|ps p kd' i' y I H IH]; cbn [all_idents].
    - apply in_app_iff. right. left. reflexivity.
    - apply in_app_iff. left. apply in_flat_map. eauto.
    - apply in_flat_map. eauto.
  Qed.

  Lemma inside_node x : forall me s s', process me x s = Some s' -> NoDup (all_idents x) ->
    forall kd i y, inside x kd i y -> has_node (snd s') kd i y.
  Proof.
    assert (AL : forall ps, Forall (fun x => forall me s s', process me x s = Some s' -> NoDup (all_idents x) ->
                   forall kd i y, inside x kd i y -> has_node (snd s') kd i y) ps ->
      forall me s s', process_all me ps s = Some s' -> NoDup (flat_map all_idents ps) ->
      forall p kd i y, In p ps -> inside p kd i y -> has_node (snd s') kd i y).
    { induction 1 as [|p ps P F IHp]; intros me s s' H ND q kd i y Q I; [destruct Q|]. cbn in H.
      destruct (process me p s) as [s1|] eqn:E; [|discriminate]. apply nodup_parts in ND. destruct ND as (N1 & N2 & N3).
      destruct Q as [<-|Q]; [|eapply IHp; eauto].
      destruct (P _ _ _ E N1 _ _ _ I) as (c1 & ds & c2 & X & Y). exists c1, ds, c2. split; [exact X|].
      rewrite (kept_all _ _ _ _ i H); [exact Y|]. apply N3. eapply inside_idents; eauto. }
    induction x as [r q0|ps IH|kd a i ps IH] using part_ind'; intros me s s' H ND kd' i' y I.
    - inversion I.
    - rewrite process_inside in H. inversion I; subst. eapply AL; eauto.
    - rewrite process_inline in H. destruct (process_all i ps ([], snd s)) as [[ds c]|] eqn:E; [|discriminate].
      injection H as <-. cbn [snd]. cbn [all_idents] in ND.
      assert (ND' : NoDup (flat_map all_idents ps) /\ ~ In i (flat_map all_idents ps)).
      { apply NoDup_remove in ND. rewrite app_nil_r in ND. exact ND. }
      inversion I; subst.
      + exists (snd s), ds, c. split; [rewrite process_inside; exact E|]. rewrite node_get_insert.
        destruct (tident_eq_dec i' i'); congruence.
      + assert (X : has_node c kd' i' y) by (change c with (snd (ds, c)); eapply AL; eauto; tauto).
        destruct X as (c1 & ds1 & c2 & X & Y). exists c1, ds1, c2. split; [exact X|]. rewrite node_get_insert.
        destruct (tident_eq_dec i' i) as [->|]; [|exact Y]. exfalso. apply ND'. apply in_flat_map. exists p.
        split; [auto|eapply inside_idents; eauto].
  Qed.

  Lemma collect_kept l : forall c c' j, collect resolve l c = Some c' -> ~ In j (schema_idents l) ->
    node_get j c' = node_get j c.
  Proof.
    induction l as [|[[kd i] x] l IH]; intros c c' j H N; cbn in H; [injection H as <-; reflexivity|].
    destruct (process i x ([], c)) as [[ds c1]|] eqn:E; [|discriminate]. unfold schema_idents in N. cbn [flat_map fst snd] in N.
    rewrite in_app_iff in N. cbn in N. rewrite (IH _ _ j H) by tauto. rewrite node_get_insert.
    destruct (tident_eq_dec j i) as [->|]; [tauto|]. apply (kept _ _ _ _ j E). tauto.
  Qed.
  Lemma collect_node l : forall c c', collect resolve l c = Some c' -> NoDup (schema_idents l) ->
    forall kd i x, component l kd i x -> has_node c' kd i x.
  Proof.
    induction l as [|[[kd0 i0] x0] l IH]; intros c c' H ND kd i x C; cbn in H.
    - destruct C as [kd i x []|kd i x kd' i' y [] I].
    - destruct (process i0 x0 ([], c)) as [[ds c1]|] eqn:E; [|discriminate].
      unfold schema_idents in ND. apply nodup_parts in ND. cbn [fst snd] in ND. destruct ND as (N1 & N2 & N3).
      assert (M : forall kd i x, has_node (node_insert i0 (Entry kd0 ds) c1) kd i x ->
        In i (i0 :: all_idents x0) -> has_node c' kd i x).
      { intros kd1 i1 x1 (c3 & ds1 & c2 & X & Y) Z. exists c3, ds1, c2. split; [exact X|].
        rewrite (collect_kept _ _ _ i1 H); [exact Y|]. apply N3, Z. }
      assert (T : has_node (node_insert i0 (Entry kd0 ds) c1) kd0 i0 x0).
      { exists c, ds, c1. split; [exact E|]. rewrite node_get_insert. destruct (tident_eq_dec i0 i0); congruence. }
      inversion N1 as [|? ? N4 N5]; subst.
      destruct C as [kd i x J|kd i x kd' i' y J I].
      + destruct J as [[= <- <- <-]|J]; [apply M; [exact T|left; reflexivity]|].
        eapply IH; eauto. apply comp_top, J.
      + destruct J as [[= <- <- <-]|J].
        * apply M; [|right; eapply inside_idents; eauto].
          destruct (inside_node _ _ _ _ E N5 _ _ _ I) as (c3 & ds1 & c2 & X & Y). exists c3, ds1, c2. split; [exact X|].
          rewrite node_get_insert. destruct (tident_eq_dec i' i0) as [->|]; [|exact Y].
          exfalso. apply N4. eapply inside_idents; eauto.
        * eapply IH; eauto. eapply comp_in; eauto.
  Qed.

  Lemma base_edge l c kd i x k q b : collect resolve l [] = Some c -> NoDup (schema_idents l) ->
    component l kd i x -> k = RBase \/ k = RHead -> last_says x k q -> resolve i q (ref_type k) = Some b -> strong_edge c i b.
  Proof.
    intros H ND C K LS R. destruct (collect_node _ _ _ H ND _ _ _ C) as (c1 & ds & c2 & X & Y).
    exists (Entry kd ds), (KNamed (fst q) (ref_type k) (snd q)). split; [exact Y|]. apply dep_get_in. cbn [e_deps].
    change ds with (fst (ds, c2)). rewrite (process_told _ _ _ _ _ _ _ X). rewrite (told_last i x k q b LS R).
    destruct K as [->| ->]; reflexivity.
  Qed.
End Collect.
