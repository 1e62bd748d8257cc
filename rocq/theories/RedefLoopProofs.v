(** The loop that redirects references. *)
From Verif Require Import Base IdentModel CacheSpec CacheProofs.
From Verif Require Import RedefModel RedefSpec RedefProofs.
From Coq Require Import Lia.
Import CacheModel.

Section Loop.
  Variables (main ns : nat) (RQ : list tident) (s0 : rstate).
  Hypothesis RD : ready main ns RQ s0.
  Hypothesis NR : not_recursive main s0.
  Notation h0 := (s_hist s0).
  Notation N0 := (s_nodes s0).
  Notation R := (s_todo s0).
  Notation to x := (ti_with_schema x main).
  Notation V0 := (visible main h0).
  Notation hist C := (with_copies main h0 C).

  Lemma mu : main <> id_unknown. Proof. exact (proj1 (rd_main _ _ _ _ RD)). Qed.
  Lemma pl : places h0 main ns. Proof. exact (proj2 (rd_main _ _ _ _ RD)). Qed.

  Lemma visible_known x : V0 x -> exists u, in_reach h0 main u /\ same_type x u /\ kind_name x = kind_name u.
  Proof.
    intros (_ & (u & I & T) & _). exists u. split; [exact I|]. split; [exact T|].
    destruct T as (_ & _ & A & B). unfold kind_name. rewrite A, B. reflexivity.
  Qed.
  Lemma visible_one x y : V0 x -> V0 y -> ti_schema x <> main -> ti_schema y <> main -> kind_name x = kind_name y -> x = y.
  Proof.
    intros X Y SX SY K. destruct (visible_known x X) as (u & Iu & Tu & Ku), (visible_known y Y) as (v & Iv & Tv & Kv).
    destruct (rd_one _ _ _ _ RD u v Iu Iv) as [_ ST]; [congruence|].
    destruct Tu as (A1 & A2 & A3 & A4), Tv as (B1 & B2 & B3 & B4).
    destruct ST as (C1 & C2 & C3 & C4); [congruence|congruence|].
    apply named_same; [apply X|apply Y|]. repeat split; congruence.
  Qed.
  Lemma visible_hides x u : V0 x -> ti_schema x <> main -> inserted h0 u -> ti_schema u = main ->
    ti_ns u = ti_ns x -> kind_name u = kind_name x -> False.
  Proof.
    intros (_ & _ & [E|H]) S I SU N K; [contradiction|].
    exact (H u (main_reach main h0 mu u I SU) N K SU).
  Qed.
  Lemma kind_to x : kind_name (to x) = kind_name x. Proof. reflexivity. Qed.
  Lemma visible_no_main x : V0 x -> ti_schema x <> main -> ~ inserted h0 (to x).
  Proof. intros V S I. exact (visible_hides x (to x) V S I eq_refl eq_refl eq_refl). Qed.
  Lemma visible_not_old x : V0 x -> ti_schema x <> main -> ~ In x R.
  Proof. intros V S I. apply (visible_no_main x V S). apply (rd_old _ _ _ _ RD x (proj2 (rd_todo _ _ _ _ RD) x I)). Qed.

  Lemma affected_facts x : affected main s0 x ->
    V0 x /\ ti_schema x <> main /\ ti_ns x = ns /\ exists e, rget x N0 = Some e /\ r_base e = None.
  Proof.
    intros A. pose proof (rd_same _ _ _ _ RD x A) as N. destruct A as [x t V S (e & k & d & G & _) _].
    repeat split; try assumption; try apply V. exists e. split; [exact G|]. exact (rd_base _ _ _ _ RD x e V S G).
  Qed.
  Lemma to_inj x y : affected main s0 x -> affected main s0 y -> to x = to y -> x = y.
  Proof.
    intros A B E. apply affected_facts in A as (A1 & A2 & _), B as (B1 & B2 & _).
    apply visible_one; try assumption. rewrite <- (kind_to x), <- (kind_to y), E. reflexivity.
  Qed.
  Lemma to_fresh x : affected main s0 x -> rget (to x) N0 = None.
  Proof.
    intros A. apply affected_facts in A as (V & S & _). destruct (rget (to x) N0) as [e|] eqn:G; [|reflexivity].
    exfalso. apply (visible_no_main x V S). exact (rd_known _ _ _ _ RD _ _ G).
  Qed.

  Section Copies.
    Variable C : list tident.
    Hypothesis AC : forall x, In x C -> affected main s0 x.
    Lemma copies_ns : forall x, In x C -> ti_ns x = ns.
    Proof. intros x I. apply (rd_same _ _ _ _ RD). auto. Qed.

    Lemma visible_before x : visible main (hist C) x -> ti_schema x <> main -> V0 x /\ ~ In x C.
    Proof.
      intros (N & (u & I & T) & [E|H]) S; [contradiction|]. split.
      - split; [exact N|]. split.
        + apply (copies_reach _ _ mu) in I as [I|(y & _ & ->)]; [eauto|].
          exfalso. apply S. destruct T as (_ & T & _). rewrite T. reflexivity.
        + right. intros w W. apply H. apply (copies_reach _ _ mu). auto.
      - intros I'. apply (H (to x)); try reflexivity. apply (copies_reach _ _ mu). eauto.
    Qed.
    Lemma visible_after x : V0 x -> ti_schema x <> main -> ~ In x C -> visible main (hist C) x.
    Proof.
      intros V S NI. pose proof V as (N & (u & I & T) & [E|H]); [contradiction|]. split; [exact N|]. split.
      - exists u. split; [apply (copies_reach _ _ mu); auto|exact T].
      - right. intros w W NW K SW. apply (copies_reach _ _ mu) in W as [W|(y & Y & ->)]; [exact (H w W NW K SW)|].
        destruct (affected_facts y (AC y Y)) as (VY & SY & _). apply NI.
        rewrite (visible_one x y V VY S SY); [exact Y|]. rewrite kind_to in K. congruence.
    Qed.
    Lemma visible_main x : inserted h0 x -> named x -> ti_schema x = main -> visible main (hist C) x.
    Proof.
      intros I N S. split; [exact N|]. split; [|auto]. exists x. split; [|repeat split].
      apply (copies_reach _ _ mu). left. exact (main_reach _ _ mu x I S).
    Qed.
    Lemma visible_copy x : In x C -> visible main (hist C) (to x).
    Proof.
      intros I. destruct (affected_facts x (AC x I)) as ((N & _) & _). split; [exact N|]. split; [|left; reflexivity].
      exists (to x). split; [|repeat split]. apply (copies_reach _ _ mu). eauto.
    Qed.
    Lemma copies_definition : one_definition main (hist C).
    Proof.
      assert (H : forall u y, in_reach h0 main u -> In y C -> kind_name u = kind_name y -> ti_ns u = ti_ns y).
      { intros u y U Y K. destruct (affected_facts y (AC y Y)) as (VY & SY & _).
        destruct (visible_known y VY) as (v & Iv & Tv & Kv). destruct Tv as (E & _).
        rewrite E. destruct (rd_one _ _ _ _ RD u v U Iv) as [X _]; [congruence|exact X]. }
      intros u v U W K. apply (copies_reach _ _ mu) in U, W.
      destruct U as [U|(x & X & ->)], W as [W|(y & Y & ->)].
      - exact (rd_one _ _ _ _ RD u v U W K).
      - split; [exact (H u y U Y K)|cbn; congruence].
      - split; [symmetry; exact (H v x W X (eq_sym K))|cbn; congruence].
      - split; [|cbn; congruence]. cbn. rewrite (copies_ns x X), (copies_ns y Y). reflexivity.
    Qed.
  End Copies.

  (** ** The invariant *)
  Notation sel P old D x := (if in_dec tident_eq_dec x P then old :: D else D).
  Notation sel2 P old D x y :=
    (if in_dec tident_eq_dec x P then old :: D else if in_dec tident_eq_dec y P then old :: D else D).

  Record inner (D C C1 P : list tident) (old : tident) (s : rstate) : Prop := {
    i_hist : s_hist s = hist C;
    i_aff : forall x, In x C -> affected main s0 x;
    i_new : forall x, In x C -> In x C1 \/ In x P;
    i_inc : incl C1 C;
    i_sets : forall x, In x (old :: D) \/ In x (s_todo s) <-> In x R \/ In x C;
    i_nodup : NoDup ((old :: D) ++ s_todo s);
    i_copy : forall x e, In x C -> rget x N0 = Some e ->
      rget (to x) (s_nodes s) = Some (REntry (r_kind e) (map (mv main (sel2 P old D x (to x)) None) (r_deps e)) (Some x));
    i_main : forall x e, ti_schema x = main -> rget x N0 = Some e ->
      rget x (s_nodes s) = Some (REntry (r_kind e) (map (mv main (sel P old D x) (r_base e)) (r_deps e)) (r_base e));
    i_kept : forall x, ti_schema x <> main -> rget x (s_nodes s) = rget x N0;
    i_only : forall x e, ti_schema x = main -> rget x N0 = None -> rget x (s_nodes s) = Some e -> exists j, In j C /\ x = to j;
    i_done : forall x t, V0 x -> ti_schema x <> main -> points N0 x t -> In t D -> In x C;
    i_doneP : forall x, In x P -> ti_schema x <> main -> points N0 x old -> In x C }.

  Record outer (D C : list tident) (s : rstate) : Prop := {
    o_hist : s_hist s = hist C;
    o_aff : forall x, In x C -> affected main s0 x;
    o_sets : forall x, In x D \/ In x (s_todo s) <-> In x R \/ In x C;
    o_nodup : NoDup (D ++ s_todo s);
    o_copy : forall x e, In x C -> rget x N0 = Some e ->
      rget (to x) (s_nodes s) = Some (REntry (r_kind e) (map (mv main D None) (r_deps e)) (Some x));
    o_main : forall x e, ti_schema x = main -> rget x N0 = Some e ->
      rget x (s_nodes s) = Some (REntry (r_kind e) (map (mv main D (r_base e)) (r_deps e)) (r_base e));
    o_kept : forall x, ti_schema x <> main -> rget x (s_nodes s) = rget x N0;
    o_only : forall x e, ti_schema x = main -> rget x N0 = None -> rget x (s_nodes s) = Some e -> exists j, In j C /\ x = to j;
    o_done : forall x t, V0 x -> ti_schema x <> main -> points N0 x t -> In t D -> In x C }.

  Lemma outer_start : outer [] [] s0.
  Proof.
    assert (E : forall b deps, map (mv main [] b) deps = deps).
    { intros b deps. rewrite <- (map_id deps) at 2. apply map_ext. intros a. reflexivity. }
    constructor; cbn; try tauto.
    - unfold with_copies. rewrite app_nil_r. reflexivity.
    - apply (rd_todo _ _ _ _ RD).
    - intros x e S G. rewrite E, G. destruct e; reflexivity.
    - intros x e S G G'. congruence.
  Qed.

  Lemma remove_in (x y : tident) l : In x (remove tident_eq_dec y l) <-> In x l /\ x <> y.
  Proof. split; [apply in_remove|intros [A B]; apply in_in_remove; assumption]. Qed.
  Lemma remove_nodup (y : tident) l : NoDup l -> NoDup (remove tident_eq_dec y l).
  Proof.
    induction 1 as [|a l N ND IH]; cbn; [constructor|]. destruct (tident_eq_dec y a); [exact IH|].
    constructor; [|exact IH]. rewrite remove_in. tauto.
  Qed.

  Lemma nodup_parts {A} (a b : list A) : NoDup (a ++ b) -> NoDup a /\ NoDup b /\ forall x, In x a -> ~ In x b.
  Proof.
    induction a as [|x a IH]; cbn; intros H; [split; [constructor|split; [exact H|tauto]]|].
    inversion H as [|? ? N ND]; subst. destruct (IH ND) as (A1 & A2 & A3). rewrite in_app_iff in N.
    split; [constructor; tauto|]. split; [exact A2|]. intros y [->|Y]; [tauto|auto].
  Qed.

  Lemma enter D C s old : outer D C s -> In old (s_todo s) ->
    inner D C C [] old (RState (s_nodes s) (s_hist s) (remove tident_eq_dec old (s_todo s))).
  Proof.
    intros O I. destruct (nodup_parts _ _ (o_nodup _ _ _ O)) as (N1 & N2 & N3).
    constructor; cbn [s_nodes s_hist s_todo].
    - apply (o_hist _ _ _ O). - apply (o_aff _ _ _ O). - auto. - intros x; auto.
    - intros x. rewrite <- (o_sets _ _ _ O x), remove_in. cbn. destruct (tident_eq_dec x old) as [->|NE]; [tauto|].
      split; [intros [[E|E]|E]; [congruence|auto|tauto]|intros [E|E]; [auto|auto]].
    - cbn. constructor.
      + rewrite in_app_iff, remove_in. intros [E|[_ E]]; [exact (N3 old E I)|congruence].
      + apply nodup_app; [exact N1|apply remove_nodup; exact N2|]. intros x X. rewrite remove_in. intros [Y _]. exact (N3 x X Y).
    - intros x e X G. rewrite (o_copy _ _ _ O x e X G). reflexivity.
    - intros x e X G. rewrite (o_main _ _ _ O x e X G). reflexivity.
    - apply (o_kept _ _ _ O). - apply (o_only _ _ _ O). - apply (o_done _ _ _ O).
    - intros x [].
  Qed.

  Lemma refers_deps x e t : rget x N0 = Some e ->
    (exists a, In a (r_deps e) /\ dep_target (snd a) = t) -> points N0 x t.
  Proof. intros G ([k d] & I & E). exists e, k, d. auto. Qed.

  Lemma named_or (x : tident) : named x \/ ~ named x.
  Proof. destruct x as [a b [n|n] t]; [left; exists n; reflexivity|right; intros (m & E); discriminate]. Qed.
  Lemma option_eq (b : option tident) t : b = Some t \/ b <> Some t.
  Proof. destruct b as [b|]; [|right; discriminate]. destruct (tident_eq_dec b t) as [->|]; [auto|right; congruence]. Qed.

  Lemma leave D C C1 P old s : inner D C C1 P old s -> (forall x, visible main (hist C1) x -> In x P) -> outer (old :: D) C s.
  Proof.
    intros J A.
    assert (AC1 : forall x, In x C1 -> affected main s0 x) by (intros x X; apply (i_aff _ _ _ _ _ _ J), (i_inc _ _ _ _ _ _ J), X).
    constructor; try apply J.
    - intros x e X G. rewrite (i_copy _ _ _ _ _ _ J x e X G).
      destruct (in_dec tident_eq_dec x P) as [|NP]; [reflexivity|].
      destruct (in_dec tident_eq_dec (to x) P) as [|NP2]; [reflexivity|]. exfalso.
      destruct (i_new _ _ _ _ _ _ J x X) as [X1|]; [|contradiction]. apply NP2, A, visible_copy; assumption.
    - intros x e X G. rewrite (i_main _ _ _ _ _ _ J x e X G).
      destruct (in_dec tident_eq_dec x P) as [|NP]; [reflexivity|].
      destruct (named_or x) as [N|N]; [exfalso; apply NP, A; exact (visible_main C1 x (rd_known _ _ _ _ RD _ _ G) N X)|].
      do 2 f_equal. apply map_ext_in. intros a Ia. symmetry.
      destruct (tident_eq_dec (dep_target (snd a)) old) as [T|T]; [|apply mv_other; exact T].
      destruct (option_eq (r_base e) old) as [B|B]; [apply mv_base; exact B|].
      exfalso. apply (rd_inner _ _ _ _ RD x old N).
      + apply (refers_deps x e old G). eauto.
      + assert (Y : In old R \/ In old C) by (apply (i_sets _ _ _ _ _ _ J); left; left; reflexivity).
        destruct Y as [Y|Y]; [left; exact Y|right; exact (i_aff _ _ _ _ _ _ J _ Y)].
    - intros x t V S F [<-|T]; [|exact (i_done _ _ _ _ _ _ J x t V S F T)].
      destruct (in_dec tident_eq_dec x C) as [|NC]; [assumption|].
      apply (i_doneP _ _ _ _ _ _ J x); [|assumption|assumption]. apply A. apply visible_after; try assumption.
      intros X. apply NC. exact (i_inc _ _ _ _ _ _ J x X).
  Qed.

  Lemma sel_snoc (P : list tident) i x : In x (P ++ [i]) <-> In x P \/ x = i.
  Proof. rewrite in_app_iff. cbn. intuition congruence. Qed.

  Lemma step D C C1 P old s i : inner D C C1 P old s ->
    visible main (hist C1) i -> ~ In (kind_name i) (map kind_name P) ->
    exists C', inner D C' C1 (P ++ [i]) old (redirect_one main old s i).
  Proof.
    intros J VI NK.
    assert (NP : ~ In i P) by (intros X; apply NK, in_map, X).
    assert (AC1 : forall x, In x C1 -> affected main s0 x) by (intros x X; apply (i_aff _ _ _ _ _ _ J), (i_inc _ _ _ _ _ _ J), X).
    assert (OM : ti_schema old <> main).
    { assert (X : In old R \/ In old C) by (apply (i_sets _ _ _ _ _ _ J); left; left; reflexivity).
      destruct X as [X|X]; [apply (rd_old _ _ _ _ RD), (proj2 (rd_todo _ _ _ _ RD))|apply affected_facts, (i_aff _ _ _ _ _ _ J)]; exact X. }
    assert (OD : ~ In old D).
    { destruct (nodup_parts _ _ (i_nodup _ _ _ _ _ _ J)) as (X & _). inversion X; assumption. }
    assert (OA : In old R \/ affected main s0 old).
    { assert (X : In old R \/ In old C) by (apply (i_sets _ _ _ _ _ _ J); left; left; reflexivity).
      destruct X as [X|X]; [auto|right; exact (i_aff _ _ _ _ _ _ J _ X)]. }
    (* what the step does to nodes other than [i] and to the rest *)
    assert (SAME : forall x y, x <> i -> y <> i -> sel2 (P ++ [i]) old D x y = sel2 P old D x y).
    { intros x y X Y. destruct (in_dec tident_eq_dec x (P ++ [i])) as [A|A]; rewrite sel_snoc in A;
        destruct (in_dec tident_eq_dec x P) as [B|B]; try tauto; try reflexivity.
      destruct (in_dec tident_eq_dec y (P ++ [i])) as [A'|A']; rewrite sel_snoc in A';
        destruct (in_dec tident_eq_dec y P) as [B'|B']; try tauto; reflexivity. }
    assert (SAME1 : forall x, x <> i -> sel (P ++ [i]) old D x = sel P old D x).
    { intros x X. destruct (in_dec tident_eq_dec x (P ++ [i])) as [A|A]; rewrite sel_snoc in A;
        destruct (in_dec tident_eq_dec x P) as [B|B]; try tauto; reflexivity. }
    unfold redirect_one.
    destruct (Nat.eq_dec (ti_schema i) main) as [SI|SI].
    - (* a node of [main] *)
      exists C.
      assert (KI : forall x, In x C -> x <> i).
      { intros x X ->. apply (i_aff _ _ _ _ _ _ J) in X. apply affected_facts in X as (_ & X & _). contradiction. }
      destruct (rget i (s_nodes s)) as [e|] eqn:G.
      2:{ (* no node *)
          assert (G0 : rget i N0 = None).
          { destruct (rget i N0) as [e|] eqn:G0; [|reflexivity]. rewrite (i_main _ _ _ _ _ _ J i e SI G0) in G. discriminate. }
          assert (NC : forall x, In x C -> to x <> i).
          { intros x X E. destruct (affected_facts x (i_aff _ _ _ _ _ _ J x X)) as (_ & _ & _ & e & Ge & _).
            rewrite <- E, (i_copy _ _ _ _ _ _ J x e X Ge) in G. discriminate. }
          constructor; try apply J.
          + intros x X. rewrite sel_snoc. destruct (i_new _ _ _ _ _ _ J x X); auto.
          + intros x e X Gx. rewrite (i_copy _ _ _ _ _ _ J x e X Gx), SAME; [reflexivity|auto|auto].
          + intros x e X Gx. rewrite (i_main _ _ _ _ _ _ J x e X Gx), SAME1; [reflexivity|]. congruence.
          + intros x X S F. apply sel_snoc in X as [X| ->]; [|contradiction]. exact (i_doneP _ _ _ _ _ _ J x X S F). }
      destruct (rget i N0) as [e0|] eqn:G0.
      + (* an original node of [main] *)
        pose proof (i_main _ _ _ _ _ _ J i e0 SI G0) as GM. rewrite GM in G. injection G as <-.
        destruct (in_dec tident_eq_dec i P) as [|_]; [contradiction|].
        destruct (rd_keys _ _ _ _ RD _ _ G0) as [K1 K2].
        pose proof (found_moves main D (r_base e0) (r_base e0)
          (REntry (r_kind e0) (map (mv main D (r_base e0)) (r_deps e0)) (r_base e0)) old (r_deps e0)
          eq_refl eq_refl OM OD (fun _ _ _ => conj (fun x => x) (fun x => x)) K1 K2) as FM.
        assert (NC : forall x, In x C -> to x <> i).
        { intros x X E. pose proof (to_fresh x (i_aff _ _ _ _ _ _ J x X)) as Z. rewrite E in Z. congruence. }
        destruct (find _ _) as [[k d]|].
        * destruct FM as (_ & _ & _ & FM). rewrite SI, Nat.eqb_refl. cbn [r_deps r_kind r_base] in *. rewrite FM.
          constructor; cbn [s_nodes s_hist s_todo]; try apply J.
          -- intros x X. rewrite sel_snoc. destruct (i_new _ _ _ _ _ _ J x X); auto.
          -- intros x e X Gx. rewrite rget_set. destruct (tident_eq_dec (to x) i) as [E|_]; [exfalso; exact (NC x X E)|].
             rewrite (i_copy _ _ _ _ _ _ J x e X Gx), SAME; [reflexivity|auto|auto].
          -- intros x e X Gx. rewrite rget_set. destruct (tident_eq_dec x i) as [->|NE].
             ++ destruct (in_dec tident_eq_dec i (P ++ [i])) as [_|Q]; [|exfalso; apply Q, sel_snoc; auto].
                rewrite G0 in Gx. injection Gx as <-. reflexivity.
             ++ rewrite (i_main _ _ _ _ _ _ J x e X Gx), SAME1; [reflexivity|exact NE].
          -- intros x X. rewrite rget_set. destruct (tident_eq_dec x i) as [->|_]; [contradiction|]. exact (i_kept _ _ _ _ _ _ J x X).
          -- intros x e X Gx. rewrite rget_set. destruct (tident_eq_dec x i) as [->|_]; [congruence|]. exact (i_only _ _ _ _ _ _ J x e X Gx).
          -- intros x X S F. apply sel_snoc in X as [X| ->]; [|contradiction]. exact (i_doneP _ _ _ _ _ _ J x X S F).
        * destruct FM as [FM _]. constructor; try apply J.
          -- intros x X. rewrite sel_snoc. destruct (i_new _ _ _ _ _ _ J x X); auto.
          -- intros x e X Gx. rewrite (i_copy _ _ _ _ _ _ J x e X Gx), SAME; [reflexivity|auto|auto].
          -- intros x e X Gx. destruct (tident_eq_dec x i) as [->|NE].
             ++ destruct (in_dec tident_eq_dec i (P ++ [i])) as [_|Q]; [|exfalso; apply Q, sel_snoc; auto].
                rewrite G0 in Gx. injection Gx as <-. rewrite GM, FM. reflexivity.
             ++ rewrite (i_main _ _ _ _ _ _ J x e X Gx), SAME1; [reflexivity|exact NE].
          -- intros x X S F. apply sel_snoc in X as [X| ->]; [|contradiction]. exact (i_doneP _ _ _ _ _ _ J x X S F).
      + (* a copy *)
        destruct (i_only _ _ _ _ _ _ J i e SI G0 G) as (j & Ij & Ei). subst i.
        pose proof (i_aff _ _ _ _ _ _ J j Ij) as Aj. destruct (affected_facts j Aj) as (Vj & Sj & Nj & e0 & Ge & Be).
        pose proof (i_copy _ _ _ _ _ _ J j e0 Ij Ge) as GC. rewrite GC in G. injection G as <-.
        assert (NPj : ~ In j P) by (intros X; apply NK; rewrite kind_to; apply in_map; exact X).
        destruct (in_dec tident_eq_dec j P) as [|_]; [contradiction|].
        destruct (in_dec tident_eq_dec (to j) P) as [|_]; [contradiction|].
        destruct (rd_keys _ _ _ _ RD _ _ Ge) as [K1 K2].
        assert (BB : forall a, In a (r_deps e0) -> dep_target (snd a) = old -> (None = Some old <-> Some j = Some old)).
        { intros a Ia Ta. split; [discriminate|]. intros [= Ej]. exfalso. apply (NR j Sj).
          apply (refers_deps j e0 j Ge). exists a. rewrite <- Ej in Ta. auto. }
        pose proof (found_moves main D None (Some j)
          (REntry (r_kind e0) (map (mv main D None) (r_deps e0)) (Some j)) old (r_deps e0)
          eq_refl eq_refl OM OD BB K1 K2) as FM.
        assert (NC : forall x, In x C -> x <> j -> to x <> to j).
        { intros x X E E'. apply E. exact (to_inj x j (i_aff _ _ _ _ _ _ J x X) Aj E'). }
        destruct (find _ _) as [[k d]|].
        * destruct FM as (_ & _ & _ & FM). cbn [ti_schema ti_with_schema]. rewrite Nat.eqb_refl. cbn [r_deps r_kind r_base] in *. rewrite FM.
          constructor; cbn [s_nodes s_hist s_todo]; try apply J.
          -- intros x X. rewrite sel_snoc. destruct (i_new _ _ _ _ _ _ J x X); auto.
          -- intros x e X Gx. rewrite rget_set. destruct (tident_eq_dec (to x) (to j)) as [E|NE].
             ++ apply (to_inj x j (i_aff _ _ _ _ _ _ J x X) Aj) in E. subst x. rewrite Ge in Gx. injection Gx as <-.
                destruct (in_dec tident_eq_dec j (P ++ [to j])) as [_|_]; [reflexivity|].
                destruct (in_dec tident_eq_dec (to j) (P ++ [to j])) as [_|Q]; [reflexivity|exfalso; apply Q, sel_snoc; auto].
             ++ rewrite (i_copy _ _ _ _ _ _ J x e X Gx), SAME; [reflexivity|auto|auto].
          -- intros x e X Gx. rewrite rget_set. destruct (tident_eq_dec x (to j)) as [->|NE]; [congruence|].
             rewrite (i_main _ _ _ _ _ _ J x e X Gx), SAME1; [reflexivity|exact NE].
          -- intros x X. rewrite rget_set. destruct (tident_eq_dec x (to j)) as [->|_]; [exfalso; apply X; reflexivity|]. exact (i_kept _ _ _ _ _ _ J x X).
          -- intros x e X Gx. rewrite rget_set. destruct (tident_eq_dec x (to j)) as [->|_]; [eauto|]. exact (i_only _ _ _ _ _ _ J x e X Gx).
          -- intros x X S F. apply sel_snoc in X as [X| ->]; [|contradiction]. exact (i_doneP _ _ _ _ _ _ J x X S F).
        * destruct FM as [FM _]. constructor; try apply J.
          -- intros x X. rewrite sel_snoc. destruct (i_new _ _ _ _ _ _ J x X); auto.
          -- intros x e X Gx. destruct (tident_eq_dec (to x) (to j)) as [E|NE].
             ++ apply (to_inj x j (i_aff _ _ _ _ _ _ J x X) Aj) in E. subst x. rewrite Ge in Gx. injection Gx as <-.
                rewrite GC, FM. destruct (in_dec tident_eq_dec j (P ++ [to j])) as [_|_]; [reflexivity|].
                destruct (in_dec tident_eq_dec (to j) (P ++ [to j])) as [_|Q]; [reflexivity|exfalso; apply Q, sel_snoc; auto].
             ++ rewrite (i_copy _ _ _ _ _ _ J x e X Gx), SAME; [reflexivity|auto|auto].
          -- intros x e X Gx. rewrite (i_main _ _ _ _ _ _ J x e X Gx), SAME1; [reflexivity|]. congruence.
          -- intros x X S F. apply sel_snoc in X as [X| ->]; [|contradiction]. exact (i_doneP _ _ _ _ _ _ J x X S F).
    - (* a node of another schema *)
      destruct (visible_before C1 i VI SI) as [V NC1].
      assert (NC : ~ In i C) by (intros X; destruct (i_new _ _ _ _ _ _ J i X); contradiction).
      assert (NM : forall x, ti_schema x = main -> x <> i) by congruence.
      rewrite (i_kept _ _ _ _ _ _ J i SI).
      destruct (rget i N0) as [e0|] eqn:G0.
      2:{ exists C. constructor; try apply J.
          + intros x X. rewrite sel_snoc. destruct (i_new _ _ _ _ _ _ J x X); auto.
          + intros x e X Gx. rewrite (i_copy _ _ _ _ _ _ J x e X Gx), SAME; [reflexivity|congruence|auto].
          + intros x e X Gx. rewrite (i_main _ _ _ _ _ _ J x e X Gx), SAME1; [reflexivity|]. auto.
          + intros x X S F. apply sel_snoc in X as [X| ->]; [exact (i_doneP _ _ _ _ _ _ J x X S F)|].
            destruct F as (e & k & d & G & _). congruence. }
      pose proof (rd_base _ _ _ _ RD i e0 V SI G0) as B0.
      destruct (rd_keys _ _ _ _ RD _ _ G0) as [K1 K2].
      assert (ID : map (mv main D None) (r_deps e0) = r_deps e0).
      { rewrite <- (map_id (r_deps e0)) at 2. apply map_ext_in. intros a Ia. unfold mv.
        destruct (in_dec tident_eq_dec (dep_target (snd a)) D) as [X|]; [|reflexivity]. exfalso. apply NC.
        apply (i_done _ _ _ _ _ _ J i (dep_target (snd a)) V SI); [|exact X].
        apply (refers_deps i e0 _ G0). eauto. }
      pose proof (found_moves main D None None e0 old (r_deps e0) (eq_sym ID) B0 OM OD
        (fun _ _ _ => conj (fun x => x) (fun x => x)) K1 K2) as FM.
      destruct (find _ _) as [[k d]|].
      + destruct FM as (FA & _ & _ & FM). destruct (Nat.eqb_spec (ti_schema i) main) as [|_]; [contradiction|]. rewrite FM.
        assert (AI : affected main s0 i).
        { apply (affected_by main s0 i old V SI); [|exact OA]. exact (refers_deps i e0 _ G0 FA). }
        exists (C ++ [i]).
        assert (IC : forall x, In x (C ++ [i]) <-> In x C \/ x = i) by (intros x; apply sel_snoc).
        assert (NT : ~ In i (s_todo s) /\ ~ In i (old :: D)).
        { assert (X : ~ (In i (old :: D) \/ In i (s_todo s))); [|tauto].
          rewrite (i_sets _ _ _ _ _ _ J). intros [X|X]; [exact (visible_not_old i V SI X)|contradiction]. }
        constructor; cbn [s_nodes s_hist s_todo].
        * rewrite with_snoc, (i_hist _ _ _ _ _ _ J). reflexivity.
        * intros x X. apply IC in X as [X| ->]; [exact (i_aff _ _ _ _ _ _ J x X)|exact AI].
        * intros x X. rewrite sel_snoc. apply IC in X as [X| ->]; [destruct (i_new _ _ _ _ _ _ J x X)|]; auto.
        * intros x X. apply IC. left. exact (i_inc _ _ _ _ _ _ J x X).
        * intros x. rewrite set_add_in, IC. pose proof (i_sets _ _ _ _ _ _ J x). tauto.
        * destruct (nodup_parts _ _ (i_nodup _ _ _ _ _ _ J)) as (A1 & A2 & A3). apply nodup_app; [exact A1|apply set_add_nodup; exact A2|].
          intros x X. rewrite set_add_in. intros [->|Y]; [tauto|exact (A3 x X Y)].
        * intros x e X Gx. rewrite rget_set. apply IC in X as [X| ->].
          -- destruct (tident_eq_dec (to x) (to i)) as [E|NE].
             { apply (to_inj x i (i_aff _ _ _ _ _ _ J x X) AI) in E. congruence. }
             rewrite (i_copy _ _ _ _ _ _ J x e X Gx), SAME; [reflexivity|congruence|auto].
          -- destruct (tident_eq_dec (to i) (to i)) as [_|]; [|congruence]. rewrite G0 in Gx. injection Gx as <-.
             destruct (in_dec tident_eq_dec i (P ++ [i])) as [_|Q]; [reflexivity|exfalso; apply Q, sel_snoc; auto].
        * intros x e X Gx. rewrite rget_set. destruct (tident_eq_dec x (to i)) as [->|_]; [rewrite (to_fresh i AI) in Gx; discriminate|].
          rewrite (i_main _ _ _ _ _ _ J x e X Gx), SAME1; [reflexivity|auto].
        * intros x X. rewrite rget_set. destruct (tident_eq_dec x (to i)) as [->|_]; [exfalso; apply X; reflexivity|]. exact (i_kept _ _ _ _ _ _ J x X).
        * intros x e X Gx. rewrite rget_set. destruct (tident_eq_dec x (to i)) as [->|_].
          -- intros _. exists i. rewrite IC. auto.
          -- intros Y. destruct (i_only _ _ _ _ _ _ J x e X Gx Y) as (j & Ij & E). exists j. rewrite IC. auto.
        * intros x t Vx Sx F T. apply IC. left. exact (i_done _ _ _ _ _ _ J x t Vx Sx F T).
        * intros x X S F. apply IC. apply sel_snoc in X as [X| ->]; [left; exact (i_doneP _ _ _ _ _ _ J x X S F)|auto].
      + destruct FM as [_ FM]. exists C. constructor; try apply J.
        * intros x X. rewrite sel_snoc. destruct (i_new _ _ _ _ _ _ J x X); auto.
        * intros x e X Gx. rewrite (i_copy _ _ _ _ _ _ J x e X Gx), SAME; [reflexivity|congruence|auto].
        * intros x e X Gx. rewrite (i_main _ _ _ _ _ _ J x e X Gx), SAME1; [reflexivity|]. auto.
        * intros x X S F. apply sel_snoc in X as [X| ->]; [exact (i_doneP _ _ _ _ _ _ J x X S F)|].
          destruct F as (e & k & d & G & Ia & T). rewrite G0 in G. injection G as <-. specialize (FM (k, d) Ia T). discriminate.
  Qed.

  Lemma round D C1 old : forall l P C s, inner D C C1 P old s ->
    (forall x, In x l -> visible main (hist C1) x) -> NoDup (map kind_name (P ++ l)) ->
    exists C', inner D C' C1 (P ++ l) old (fold_left (redirect_one main old) l s).
  Proof.
    induction l as [|i l IH]; intros P C s J V ND; [rewrite app_nil_r; eauto|].
    destruct (step D C C1 P old s i J) as (C' & J').
    - apply V. left. reflexivity.
    - rewrite map_app in ND. cbn in ND. apply NoDup_remove_2 in ND. rewrite in_app_iff in ND. tauto.
    - destruct (IH (P ++ [i]) C' _ J') as (C'' & J'').
      + intros x X. apply V. right. exact X.
      + rewrite <- app_assoc. exact ND.
      + exists C''. rewrite <- app_assoc in J''. exact J''.
  Qed.

  Variables (o : order) (pick : list tident -> option tident).
  Hypothesis OO : any_order_of o.
  Hypothesis PK : any_pick pick.

  Lemma outer_bound D C s : outer D C s -> length D <= length R + length N0.
  Proof.
    intros O. destruct (nodup_parts _ _ (o_nodup _ _ _ O)) as (N1 & _).
    rewrite <- (map_length fst N0), <- app_length. apply NoDup_incl_length; [exact N1|]. intros x X. apply in_app_iff.
    assert (Y : In x R \/ In x C) by (apply (o_sets _ _ _ O); auto). destruct Y as [Y|Y]; [auto|right].
    apply (o_aff _ _ _ O), affected_facts in Y as (_ & _ & _ & e & G & _). exact (rget_in _ _ _ G).
  Qed.

  Lemma loop : forall m D C s, outer D C s -> length R + length N0 <= length D + m ->
    exists F D' C' s', outer D' C' s' /\ s_todo s' = [] /\
      forall fuel set_fuel, F <= fuel -> F <= set_fuel -> resolve_dependencies fuel set_fuel o pick main s = Some s'.
  Proof.
    induction m as [m IH] using lt_wf_ind. intros D C s O L.
    pose proof (PK (s_todo s)) as Pk. destruct (pick (s_todo s)) as [old|] eqn:E.
    - pose proof (o_aff _ _ _ O) as AC.
      destruct (set_visible main (hist C) o OO) as (n & l & SE & ND & VL).
      { apply (copies_one main ns h0); [exact pl|apply (rd_ns _ _ _ _ RD)|exact (copies_ns C AC)]. }
      { exact (copies_definition C AC). }
      { exact mu. }
      destruct (round D C old l [] C _ (enter D C s old O Pk)) as (C' & J); [intros x X; apply VL; exact X|exact ND|].
      cbn [app] in J. pose proof (leave _ _ _ _ _ _ J (fun x X => proj2 (VL x) X)) as O'.
      pose proof (outer_bound _ _ _ O') as B. cbn [length] in B.
      destruct (IH (m - 1)) with (D := old :: D) (C := C') (s := fold_left (redirect_one main old) l
        (RState (s_nodes s) (s_hist s) (remove tident_eq_dec old (s_todo s)))) as (F & D' & C2 & s' & O2 & T2 & H2);
        [lia|exact O'|cbn [length]; lia|].
      exists (S (F + n)), D', C2, s'. split; [exact O2|]. split; [exact T2|].
      intros fuel set_fuel L1 L2. destruct fuel as [|fuel]; [lia|]. cbn [resolve_dependencies]. rewrite E.
      rewrite (o_hist _ _ _ O), (SE set_fuel) by lia. rewrite <- (o_hist _ _ _ O). apply H2; lia.
    - exists 1, D, C, s. split; [exact O|]. split; [exact Pk|].
      intros fuel set_fuel L1 _. destruct fuel as [|fuel]; [lia|]. cbn. rewrite E. reflexivity.
  Qed.

  Lemma finished D C s : outer D C s -> s_todo s = [] ->
    (forall x, In x C <-> affected main s0 x) /\ (forall x, In x D <-> In x R \/ affected main s0 x).
  Proof.
    intros O T.
    assert (S : forall x, In x D <-> In x R \/ In x C).
    { intros x. rewrite <- (o_sets _ _ _ O x), T. cbn. tauto. }
    assert (A : forall x, In x C <-> affected main s0 x).
    { intros x. split; [apply (o_aff _ _ _ O)|]. revert x. fix IH 2. intros x [x' t V SX F Q].
      apply (o_done _ _ _ O x' t V SX F), S. destruct Q as [I|Q]; [left; exact I|right; exact (IH t Q)]. }
    split; [exact A|]. intros x. rewrite S, A. tauto.
  Qed.

  (** ** The result *)
  Lemma mv_moved D b a (keep : tident -> Prop) : (forall x, In x D <-> In x R \/ affected main s0 x) ->
    (b = Some (dep_target (snd a)) <-> keep (dep_target (snd a))) -> moved_dep main s0 keep a (mv main D b a).
  Proof.
    intros H K. split; [symmetry; apply mv_fst|]. cbn zeta. rewrite <- K. unfold mv.
    destruct (in_dec tident_eq_dec (dep_target (snd a)) D) as [I|I]; rewrite H in I.
    - destruct (option_eq b (dep_target (snd a))) as [->|B].
      + destruct (tident_eq_dec _ _) as [_|]; [|congruence]. left. auto.
      + right. split; [|auto]. destruct b as [b|]; [|reflexivity]. destruct (tident_eq_dec b _) as [->|]; [congruence|reflexivity].
    - left. auto.
  Qed.
  Lemma mv_all D b l keep : (forall x, In x D <-> In x R \/ affected main s0 x) ->
    (forall a, In a l -> (b = Some (dep_target (snd a)) <-> keep (dep_target (snd a)))) ->
    Forall2 (moved_dep main s0 keep) l (map (mv main D b) l).
  Proof.
    intros H. induction l as [|a l IH]; intros K; constructor; [apply mv_moved; [exact H|apply K; left; reflexivity]|].
    apply IH. intros x X. apply K. right. exact X.
  Qed.
  Lemma base_iff i e t : ti_schema i = main -> rget i N0 = Some e -> points N0 i t -> (r_base e = Some t <-> redefinition_of main RQ i t).
  Proof.
    intros S G F. split; [intros B; exact (rd_self _ _ _ _ RD i e t S G B F)|].
    intros (I & ->). exact (rd_new _ _ _ _ RD t e I G).
  Qed.

  Lemma outer_redirected D C s : outer D C s -> s_todo s = [] -> redirected main RQ s0 s.
  Proof.
    intros O T. destruct (finished D C s O T) as [FC FD]. constructor.
    - intros i e A G. exists (map (mv main D None) (r_deps e)). split.
      + apply (o_copy _ _ _ O); [apply FC; exact A|exact G].
      + apply mv_all; [exact FD|]. intros a _. split; [discriminate|intros []].
    - intros i e S G. exists (map (mv main D (r_base e)) (r_deps e)). split; [exact (o_main _ _ _ O i e S G)|].
      apply mv_all; [exact FD|]. intros a Ia. apply (base_iff i e _ S G). apply (refers_deps i e _ G). eauto.
    - exact (o_kept _ _ _ O).
    - intros i e S G G'. destruct (o_only _ _ _ O i e S G G') as (j & J & E). exists j. rewrite <- FC. auto.
    - intros i. rewrite (o_hist _ _ _ O), copies_inserted. split; (intros [I|(j & J & E)]; [auto|right; exists j]).
      + rewrite <- FC. auto.
      + rewrite FC. auto.
  Qed.

  Lemma outer_pervasive D C s : closed main ns RQ s0 -> outer D C s -> s_todo s = [] -> pervasive main (s_hist s) RQ (s_nodes s).
  Proof.
    intros CL O T. destruct (finished D C s O T) as [FC FD]. rewrite (o_hist _ _ _ O).
    pose proof (o_aff _ _ _ O) as AC.
    set (foreign := fun t => ti_ns t <> ns /\ rget t (s_nodes s) = None).
    assert (NV : forall t, V0 t -> ~ affected main s0 t -> visible main (hist C) t).
    { intros t V NA. destruct (Nat.eq_dec (ti_schema t) main) as [E|NE].
      - destruct V as (N & (u & U & W) & _). split; [exact N|]. split; [|auto]. exists u. split; [|exact W].
        apply (copies_reach _ _ mu). auto.
      - apply visible_after; try assumption. rewrite FC. exact NA. }
    assert (NF : forall t, ti_ns t <> ns -> rget t N0 = None -> foreign t).
    { intros t N G. split; [exact N|]. destruct (Nat.eq_dec (ti_schema t) main) as [E|NE].
      - destruct (rget t (s_nodes s)) as [e|] eqn:G'; [|reflexivity]. exfalso.
        destruct (o_only _ _ _ O t e E G G') as (j & J & ->). apply N. cbn. apply (rd_same _ _ _ _ RD). auto.
      - rewrite (o_kept _ _ _ O t NE). exact G. }
    assert (CT : forall x t, V0 x \/ inner_node main s0 x -> refers main RQ N0 x t -> ~ (In t R \/ affected main s0 t) ->
                 visible main (hist C) t \/ inner_node main s0 t \/ foreign t).
    { intros x t V F NO. destruct (CL x t V F) as [Q|[Q|[Q|[Q1 Q2]]]]; [tauto| |auto|auto]. left. apply NV; tauto. }
    assert (MV : forall t, In t R \/ affected main s0 t -> visible main (hist C) (to t)).
    { intros t [I|A]; [|apply visible_copy; [exact AC|apply FC; exact A]].
      destruct (rd_old _ _ _ _ RD t (proj2 (rd_todo _ _ _ _ RD) t I)) as (N & S & J). apply visible_main; [exact J|exact N|reflexivity]. }
    assert (NX : forall x t, visible main (hist C) x \/ inner_node main s0 x \/ foreign x -> refers main RQ (s_nodes s) x t ->
                 visible main (hist C) t \/ inner_node main s0 t \/ foreign t).
    { intros x t V ((e & k & d & G & I & E) & B).
      assert (NQ : forall y, ti_schema y <> main -> ~ redefinition_of main RQ y t) by (intros y Y (_ & Z); apply Y; rewrite Z; reflexivity).
      assert (MVD : forall y b deps e0, rget y N0 = Some e0 -> r_deps e0 = deps -> r_base e0 = b ->
                In (k, d) (map (mv main D b) deps) -> (points N0 y t -> b <> Some t) -> ~ redefinition_of main RQ y t -> (V0 y \/ inner_node main s0 y) ->
                visible main (hist C) t \/ inner_node main s0 t \/ foreign t).
      { intros y b deps e0 Gy Ed Eb Id NB NR' Vy. apply in_map_iff in Id as (a & Ea & Ia).
        destruct (mv_moved D b a (fun z => b = Some z) FD (conj (fun z => z) (fun z => z))) as (_ & M). cbn zeta in M. rewrite Ea in M. cbn [snd] in M.
        destruct M as [(Es & M)|(Es & B' & M)].
        - rewrite <- Es, E in M.
          assert (PT : points N0 y t).
          { apply (refers_deps y e0 t Gy). exists a. rewrite Ed. split; [exact Ia|]. congruence. }
          apply (CT y t Vy (conj PT NR')). destruct M as [M|M]; [exfalso; exact (NB PT M)|exact M].
        - left. rewrite <- E, Es, dep_target_with. apply MV. exact M. }
      destruct V as [V|[V|V]].
      - destruct (Nat.eq_dec (ti_schema x) main) as [S|S].
        + destruct (rget x N0) as [e0|] eqn:G0.
          * pose proof (o_main _ _ _ O x e0 S G0) as G1. rewrite G in G1. injection G1 as ->. cbn [r_deps r_base] in *.
            apply (MVD x (r_base e0) (r_deps e0) e0 G0 eq_refl eq_refl I); [intros PT Z; apply B, (base_iff x e0 t S G0 PT); exact Z|exact B|]. left.
            destruct V as (N & _ & _). split; [exact N|]. split; [|auto]. exists x. split; [|repeat split].
            apply (main_reach _ _ mu); [exact (rd_known _ _ _ _ RD _ _ G0)|exact S].
          * destruct (o_only _ _ _ O x e S G0 G) as (j & J & ->).
            destruct (affected_facts j (AC j J)) as (Vj & Sj & _ & e0 & Gj & Bj).
            pose proof (o_copy _ _ _ O j e0 J Gj) as G1. rewrite G in G1. injection G1 as ->. cbn [r_deps r_base] in *.
            apply (MVD j None (r_deps e0) e0 Gj eq_refl Bj I); [discriminate|exact (NQ j Sj)|auto].
        + destruct (visible_before C x V S) as [V' NC]. rewrite (o_kept _ _ _ O x S) in G.
          assert (F : points N0 x t) by (exists e, k, d; auto). apply (CT x t (or_introl V') (conj F B)).
          intros Q. apply NC, FC. exact (affected_by _ _ x t V' S F Q).
      - destruct (Nat.eq_dec (ti_schema x) main) as [S|S].
        + destruct (rget x N0) as [e0|] eqn:G0.
          * pose proof (o_main _ _ _ O x e0 S G0) as G1. rewrite G in G1. injection G1 as ->. cbn [r_deps r_base] in *.
            apply (MVD x (r_base e0) (r_deps e0) e0 G0 eq_refl eq_refl I); [intros PT Z; apply B, (base_iff x e0 t S G0 PT); exact Z|exact B|auto].
          * exfalso. destruct (o_only _ _ _ O x e S G0 G) as (j & J & ->). destruct (affected_facts j (AC j J)) as (Vj & _).
            destruct V as (V & _). apply V. exact (proj1 Vj).
        + rewrite (o_kept _ _ _ O x S) in G. assert (F : points N0 x t) by (exists e, k, d; auto).
          apply (CT x t (or_intror V) (conj F B)). exact (rd_inner _ _ _ _ RD x t (proj1 V) F).
      - destruct V as [_ V]. congruence. }
    assert (US : forall x, used main (hist C) RQ (s_nodes s) x -> visible main (hist C) x \/ inner_node main s0 x \/ foreign x).
    { induction 1 as [x V|x t U IH F]; [auto|exact (NX x t IH F)]. }
    intros x t U F (S & u & I & Su & Nu & Ku).
    destruct (NX x t (US x U) F) as [(_ & _ & [V|V])|[(V1 & V2 & V3)|[V _]]].
    - contradiction.
    - apply (V u); try assumption. split; [exact I|]. rewrite Su. split; [exact mu|constructor].
    - apply copies_inserted in I as [I|(j & J & ->)].
      + apply V2. split; [exact S|]. eauto.
      + destruct (affected_facts j (AC j J)) as (Vj & _ & _ & e & G & _). rewrite (V3 j Vj) in G; [discriminate|exact Ku].
    - apply V. rewrite <- Nu. apply copies_inserted in I as [I|(j & J & ->)].
      + apply (main_ns main ns h0 mu pl (rd_ns _ _ _ _ RD) u I Su).
      + exact (rd_same _ _ _ _ RD j (AC j J)).
  Qed.
End Loop.

Theorem resolve_redirects main ns redefined s o pick :
  ready main ns redefined s -> not_recursive main s -> CacheSpec.any_order_of o -> any_pick pick ->
  exists bound s',
    (forall fuel set_fuel, bound <= fuel -> bound <= set_fuel -> resolve_dependencies fuel set_fuel o pick main s = Some s') /\
    redirected main redefined s s' /\ (closed main ns redefined s -> pervasive main (s_hist s') redefined (s_nodes s')).
Proof.
  intros RD NR O P.
  destruct (loop main ns redefined s RD NR o pick O P (length (s_todo s) + length (s_nodes s)) [] [] s (outer_start main ns redefined s RD))
    as (F & D & C & s' & OU & T & H); [reflexivity|].
  exists F, s'. split; [intros fuel set_fuel A B; apply H; assumption|]. split.
  - exact (outer_redirected main ns redefined s RD D C s' OU T).
  - intros CL. exact (outer_pervasive main ns redefined s RD D C s' CL OU T).
Qed.
