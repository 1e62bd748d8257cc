(** No type of a steady schema panics: the machines of GenSafeProofs, connected. *)
From Verif Require Import DeSpec GenModel GenSpec GenFrameProofs GenSafeProofs DocModel DocSpec DocProofs DocTypeProofs.
Local Open Scope list_scope.

(** ** Deserializers of the common type *)
Section LiftSafe.
  Context {T A W E : Type}.
  Variables (inj : W -> val T A) (up : E -> dst T A) (down : dst T A -> option E) (des : deser W E).
  Hypothesis DU : forall d, down (up d) = Some d.
  Notation ldes := (lift inj up down des).

  Lemma lift_step (P : E -> Prop) (Q : dst T A -> Prop) e r : (forall d, P d -> Q (up d)) ->
    step_ok P e r -> step_ok Q e (lift_result inj up r).
  Proof.
    intros PQ S. destruct r as [[o h]| |]; auto. destruct S as (B & N & AR). cbn. split; [exact B|split].
    - intros EE. destruct (N EE) as [?|[? (v & ->)]]; [auto|]. right. split; [assumption|]. eexists. reflexivity.
    - destruct (o_art o); cbn; auto. destruct AR; auto.
  Qed.
  Lemma lift_alive k d : alive des k d -> alive ldes k (up d).
  Proof.
    revert d. induction k as [|k IH]; intros d AL; cbn [alive] in *.
    - split; [|exact I]. intros h. cbn. rewrite DU. apply quiet_bind; [apply AL|intros [w h'] _; auto with safe].
    - destruct AL as (F & L & N). split; [|split; [apply IH; exact L|]].
      + intros h. cbn. rewrite DU. apply quiet_bind; [apply F|intros [w h'] _; auto with safe].
      + intros h e. cbn [de_next lift]. rewrite DU. eapply lift_step; [|apply N]. exact IH.
  Qed.
  Lemma lift_start g k h e : start_ok g (alive des k) e (de_init des h e) ->
    start_ok g (alive ldes k) e (de_init ldes h e).
  Proof.
    cbn [de_init lift]. destruct (de_init des h e) as [[o h']| |]; auto. intros [B S]. cbn -[alive]. split; [exact B|].
    destruct (is_tag e); [|rewrite S; reflexivity]. destruct (o_art o); cbn -[alive]; auto.
    destruct S as [EV AL]. split; [exact EV|apply lift_alive; exact AL].
  Qed.
  Lemma lift_reach d : reach ldes d -> exists s, d = up s /\ reach des s.
  Proof.
    intros R. induction R as [h e o h' d H AO|d0 h e o h' d _ (s & -> & RS) H AO]; cbn [de_init de_next lift] in H.
    - unfold lift_result in H. bind H. injection H as <- _. cbn in AO.
      destruct (o_art a) as [|w|s] eqn:AA; try discriminate AO. injection AO as <-. exists s. split; [reflexivity|].
      eapply reach_init; eauto.
    - rewrite DU in H. unfold lift_result in H. bind H. injection H as <- _. cbn in AO.
      destruct (o_art a) as [|w|s'] eqn:AA; try discriminate AO. injection AO as <-. exists s'. split; [reflexivity|].
      eapply reach_next; eauto.
  Qed.
  Lemma lift_late : late des -> late ldes.
  Proof.
    intros [LI LN]. split.
    - intros h e o h' v H AO. cbn [de_init lift] in H. unfold lift_result in H. bind H. injection H as <- _. cbn in *.
      destruct (o_art a) as [|w|s] eqn:AA; try discriminate AO. eapply LI; eauto.
    - intros d h e o h' v R H AO. apply lift_reach in R. destruct R as (s & -> & R). cbn [de_next lift] in H. rewrite DU in H.
      unfold lift_result in H. bind H. injection H as <- _. cbn in *.
      destruct (o_art a) as [|w|s'] eqn:AA; try discriminate AO. eapply LN; eauto.
  Qed.
End LiftSafe.

Section TypesSafe.
  Context {T A : Type}.
  Variable ff : flat_flags.
  Variable no_attrs : A.
  Notation mem := (member (val T A) (dst T A)).

  Lemma any_quiet : forall h n a, quiet (any_attrs no_attrs h n a).
  Proof. intros. apply quiet_ok. Qed.

  (** What a choice needs to fill in its first alternative. *)
  Definition default_quiet (c : compositor) (dfl : bool) (ms : list mem) : Prop :=
    is_choice c = true -> dfl = true ->
    ms <> [] /\ forall m l, ms = m :: l -> forall h, quiet (variant_default m h).
  Definition no_caps (c : compositor) (ms : list mem) : Prop :=
    match c with CAll => forall m, In m ms -> cap m = None | _ => True end.

  Section Raw.
    Variables (n : nat) (c : compositor) (dfl : bool) (ms : list mem).
    Hypothesis MS : Forall (member_safe n) ms.
    Hypothesis NE : ms <> [].
    Hypothesis DQ : default_quiet c dfl ms.
    Hypothesis NC : no_caps c ms.

    Lemma raw_start k h e : k < n -> is_end e = false ->
      start_ok true (alive (raw_group no_attrs c dfl ms) k) e (de_init (raw_group no_attrs c dfl ms) h e).
    Proof.
      intros K EN. unfold raw_group. destruct c.
      - apply lift_start; [reflexivity|]. eapply seq_group_start; eauto.
      - apply lift_start; [reflexivity|]. eapply enum_group_start; eauto. discriminate.
      - apply lift_start; [reflexivity|]. eapply all_group_start; eauto.
    Qed.
    Lemma raw_late : is_choice c = false -> late (raw_group no_attrs c dfl ms).
    Proof.
      clear MS NE DQ NC. intros NH. unfold raw_group. destruct c; try discriminate NH; apply lift_late; try reflexivity.
      - eapply seq_late; eauto.
      - eapply all_late; eauto.
    Qed.
    Lemma raw_new_quiet h : quiet (de_finish (raw_group no_attrs c dfl ms) (raw_new no_attrs c ms) h).
    Proof.
      pose proof DQ as Q. pose proof NC as N. unfold raw_group, raw_new. destruct c; eapply (alive_finish _ 0);
        (eapply lift_alive; [reflexivity|]).
      - apply (seq_alive _ _ _ _ _ ms n MS NE); [lia|]. apply new_rest.
      - apply (enum_alive _ _ _ _ _ ms n MS); [intros DF; apply (Q eq_refl DF)|intros X; discriminate X|lia|exact I].
      - apply (all_alive _ _ _ _ ms n MS N); [lia|exact I].
    Qed.
    Lemma raw_default_quiet df h : raw_default no_attrs c dfl ms = Some df -> quiet (df h).
    Proof. intros E. pose proof (raw_new_quiet h) as Q. unfold raw_default in E. destruct dfl; [|discriminate E]. injection E as <-. exact Q. Qed.

    Lemma content_safe min max : from_occurs min max <> ONone -> member_safe n (content_member no_attrs min max c dfl ms).
    Proof.
      intros NO. constructor.
      - unfold m_occ. cbn. destruct (from_occurs min max); congruence.
      - right. reflexivity.
      - intros df E h. eapply raw_default_quiet; exact E.
      - intros k h e K EN. apply raw_start; auto.
    Qed.

    Lemma group_start k h e : k < n -> is_end e = false ->
      start_ok true (alive (group_deser ff no_attrs c dfl ms) k) e (de_init (group_deser ff no_attrs c dfl ms) h e).
    Proof.
      intros K EN. unfold group_deser. destruct (flat_for ff c); [apply raw_start; auto|].
      apply lift_start; [reflexivity|].
      apply (cdes_group_start _ _ _ (content_member no_attrs 1 (Bounded 1) c dfl ms) n);
        [apply content_safe; discriminate|intros _; split; [reflexivity|exists 1; reflexivity]|intros X; discriminate X
        |exact K|exact EN|reflexivity].
    Qed.
    Lemma group_late : is_choice c = false -> late (group_deser ff no_attrs c dfl ms).
    Proof.
      clear MS NE DQ NC. intros NH. unfold group_deser. destruct (flat_for ff c); [apply raw_late; exact NH|].
      apply lift_late; [reflexivity|].
      apply (cdes_late _ _ _ (content_member no_attrs 1 (Bounded 1) c dfl ms));
        [intros _; split; [reflexivity|exists 1; reflexivity]|reflexivity|apply raw_late; exact NH].
    Qed.
    Lemma group_new_quiet h : quiet (de_finish (group_deser ff no_attrs c dfl ms) (group_new ff no_attrs c ms) h).
    Proof.
      unfold group_deser, group_new. destruct (flat_for ff c); [apply raw_new_quiet|].
      eapply (alive_finish _ 0). eapply lift_alive; [reflexivity|].
      apply (cdes_alive _ _ _ (content_member no_attrs 1 (Bounded 1) c dfl ms) n).
      - apply content_safe. discriminate.
      - intros _. split; [reflexivity|]. exists 1. reflexivity.
      - discriminate.
      - lia.
      - apply (cnew_rest (content_member no_attrs 1 (Bounded 1) c dfl ms)).
    Qed.
    Lemma group_default_quiet df h : group_default ff no_attrs c dfl ms = Some df -> quiet (df h).
    Proof. intros E. pose proof (group_new_quiet h) as Q. unfold group_default in E. destruct dfl; [|discriminate E]. injection E as <-. exact Q. Qed.
  End Raw.

  (** ** Particles *)
  Section Members.
    Variable gen : nat -> deser (val T A) (dst T A).
    Variable n : nat.
    Hypothesis GS : forall ty k h e, k < n -> start_ok false (alive (gen ty) k) e (de_init (gen ty) h e).
    Notation member_of := (member_of ff no_attrs gen).

    Lemma possible_occ min max : possible max = true -> from_occurs min max <> ONone.
    Proof.
      unfold from_occurs. destruct max as [|[|[|x]]], min as [|[|y]]; cbn; try discriminate;
        try (destruct (Nat.eqb _ _)); discriminate.
    Qed.
    Lemma member_occ p : possible (p_max p) = true -> m_occ (member_of p) <> ONone.
    Proof.
      intros P. apply (possible_occ (p_min p)) in P. unfold m_occ. destruct p; cbn in *;
        destruct (from_occurs min max); try congruence. destruct (is_choice c && existsb check_element ps)%bool; discriminate.
    Qed.
    Lemma member_cap p : filled_group p = false -> cap (member_of p) = None.
    Proof.
      destruct p as [min max ns name ty|min max c ps]; cbn [filled_group].
      - intros _. unfold cap. cbn. destruct (m_occ _); reflexivity.
      - intros F. destruct (cap (member_of (PGroup min max c ps))) as [k|] eqn:C; [|reflexivity]. exfalso.
        pose proof C as C'. apply cap_static in C'. destruct C' as (O & M & K). cbn in M.
        unfold m_occ in O. cbn [DocModel.member_of m_min m_max m_opt] in O. subst max.
        assert (MIN : min = k).
        { unfold from_occurs in O. destruct min as [|[|y]], k as [|[|x]]; cbn in O; try discriminate; try lia.
          destruct (Nat.eqb_spec y x); [congruence|discriminate]. }
        subst min. unfold filled_up in F. rewrite Nat.eqb_refl in F. destruct (Nat.leb_spec 2 k); [|lia]. cbn [andb] in F.
        unfold cap in C. cbn [DocModel.member_of m_default] in C. unfold group_default in C. rewrite defaultable_plain, F in C.
        destruct (m_occ _); discriminate.
    Qed.

    (** The alternative that is filled in exists. *)
    Lemma variant_quiet p : defaultable_element p = true -> m_occ (member_of p) <> ONone ->
      (forall df, m_default (member_of p) = Some df -> forall h, quiet (df h)) ->
      forall h, quiet (variant_default (member_of p) h).
    Proof.
      intros DE NO DQ h. unfold variant_default.
      assert (MN : m_min (member_of p) = p_min p) by (destruct p; reflexivity).
      assert (ZE : p_min p <> 0 -> exists df, m_default (member_of p) = Some df).
      { intros Z. destruct p as [min max ns name ty|min max c ps]; cbn [defaultable_element p_min] in *.
        - apply Nat.eqb_neq in Z. rewrite Z in DE. discriminate.
        - apply Nat.eqb_neq in Z. rewrite Z in DE. cbn [orb] in DE. cbn [DocModel.member_of m_default].
          unfold group_default. fold (defaultable_group c ps) in DE. rewrite DE. eauto. }
      assert (PQ : forall df n h l, (forall h, quiet (df h)) -> quiet (push_defaults (T:=val T A) df n h l)) by (intros; apply push_quiet; auto).
      assert (OS : forall o, m_occ (member_of p) = o -> match o with OSingle | OStatic _ => p_min p <> 0 | _ => True end).
      { intros o O. rewrite <- MN. unfold m_occ, from_occurs in O. destruct (m_min (member_of p)) as [|x]; [|destruct o; auto].
        destruct (m_max (member_of p)) as [|[|[|y]]]; cbn in O; subst o; exact I. }
      specialize (OS _ eq_refl). destruct (m_occ (member_of p)) eqn:O.
      - congruence.
      - destruct (ZE OS) as (df & DF). rewrite DF. apply quiet_bind; [apply DQ; exact DF|intros [v h'] _; auto with safe].
      - auto with safe.
      - rewrite MN. destruct (p_min p) as [|x] eqn:PM; [auto with safe|].
        destruct (ZE ltac:(lia)) as (df & DF). rewrite DF. apply quiet_bind; [apply PQ; auto|intros [v h'] _; auto with safe].
      - destruct (ZE OS) as (df & DF). rewrite DF. apply quiet_bind; [apply arr_quiet; [auto|cbn; lia]|intros [v h'] _; auto with safe].
    Qed.

    Lemma member_ok : forall p, steady p = true -> member_safe n (member_of p).
    Proof.
      induction p as [min max ns name ty|min max c ps IH] using particle_ind'; intros S.
      - constructor.
        + apply member_occ. exact S.
        + left. auto.
        + discriminate.
        + intros k h e K EN. apply GS. exact K.
      - cbn [steady] in S. apply andb_prop in S. destruct S as [S CA]. apply andb_prop in S. destruct S as [S FS].
        apply andb_prop in S. destruct S as [PO NP].
        assert (MS : Forall (member_safe n) (map member_of ps)).
        { rewrite Forall_map. rewrite forallb_forall in FS. apply Forall_forall. intros p P. rewrite Forall_forall in IH.
          apply IH; auto. }
        assert (NE : map member_of ps <> []) by (destruct ps; discriminate).
        assert (DQ : default_quiet c (defaultable_group c ps) (map member_of ps)).
        { intros CC DG. split; [exact NE|]. unfold defaultable_group in DG. rewrite CC in DG. apply andb_prop in DG. destruct DG as [_ DG].
          intros m l E. destruct ps as [|p ps]; [discriminate|]. cbn in E. injection E as <- _.
          cbn in DG. apply andb_prop in DG. destruct DG as [DG _]. inversion MS as [|m' l' SM _ E1]; subst.
          apply variant_quiet; [exact DG|apply (ms_occ _ _ SM)|apply (ms_default _ _ SM)]. }
        assert (NC : no_caps c (map member_of ps)).
        { destruct c; cbn; auto. intros m IN. apply in_map_iff in IN. destruct IN as (p & <- & IN).
          rewrite forallb_forall in CA. specialize (CA p IN). apply member_cap. destruct (filled_group p); [discriminate|reflexivity]. }
        constructor.
        + apply member_occ. exact PO.
        + right. reflexivity.
        + intros df E h. cbn in E. eapply group_default_quiet with (n := n); eauto.
        + intros k h e K EN. cbn [DocModel.member_of m_deser is_group m_kind mkind_eqb]. apply (group_start n); auto.
    Qed.
    Lemma members_safe ps : forallb steady ps = true -> Forall (member_safe n) (map member_of ps).
    Proof.
      intros S. rewrite Forall_map. apply Forall_forall. rewrite forallb_forall in S. intros p P. apply member_ok. auto.
    Qed.
    Lemma members_caps ps : forallb (fun p => negb (filled_group p)) ps = true ->
      forall m, In m (map member_of ps) -> cap m = None.
    Proof.
      intros CA m IN. apply in_map_iff in IN. destruct IN as (p & <- & IN).
      rewrite forallb_forall in CA. specialize (CA p IN). apply member_cap. destruct (filled_group p); [discriminate|reflexivity].
    Qed.
    Lemma content_default_quiet c ps : forallb steady ps = true -> ps <> [] ->
      default_quiet c (defaultable_group c ps) (map member_of ps).
    Proof.
      intros S NE CC DG. pose proof (members_safe ps S) as MS. split; [destruct ps; congruence || discriminate|].
      unfold defaultable_group in DG. rewrite CC in DG. apply andb_prop in DG. destruct DG as [_ DG].
      intros m l E. destruct ps as [|p ps]; [discriminate|]. cbn in E. injection E as <- _.
      cbn in DG. apply andb_prop in DG. destruct DG as [DG _]. inversion MS as [|m' l' SM _ E1]; subst.
      apply variant_quiet; [exact DG|apply (ms_occ _ _ SM)|apply (ms_default _ _ SM)].
    Qed.
    Lemma group_member_late min max c ps : is_choice c = false -> late (m_deser (member_of (PGroup min max c ps))).
    Proof. intros NH. cbn [DocModel.member_of m_deser]. apply group_late. exact NH. Qed.
  End Members.

  (** ** Types *)
  Variable attrs_of : nat -> dhelper -> bytes -> list attr -> outcome kind (A * dhelper).
  Variable parse : nat -> dhelper -> bytes -> outcome kind (T * dhelper).
  Variable charref : bytes -> option bytes.
  Variable utf8_ok : bytes -> bool.
  Variable env : nat -> tdef.
  Hypothesis AQ : forall ty h n a, quiet (attrs_of ty h n a).
  Hypothesis PQ : forall ty h s, quiet (parse ty h s).
  Hypothesis ST : forall ty, steady_type ff (env ty) = true.
  Notation type_deser := (type_deser ff no_attrs attrs_of parse charref utf8_ok env).

  Lemma types_safe : forall n ty k h e, k < n ->
    start_ok false (alive (type_deser n ty) k) e (de_init (type_deser n ty) h e).
  Proof.
    induction n as [|n IH]; intros ty k h e K; [lia|]. cbn [DocModel.type_deser]. pose proof (ST ty) as S.
    destruct (env ty) as [| |attributed min max c ps].
    - apply lift_start; [reflexivity|]. apply text_init_ok. apply PQ.
    - apply lift_start; [reflexivity|]. apply simple_start; [apply AQ|apply PQ].
    - cbn [steady_type] in S. apply andb_prop in S. destruct S as [FS S]. unfold complex_deser.
      set (ms := map (DocModel.member_of ff no_attrs (type_deser n)) ps).
      assert (MS : Forall (member_safe n) ms) by (apply members_safe; [exact IH|exact FS]).
      assert (EM : start_ok false (alive (lift_empty (T:=T) (empty_deser (attrs_of ty) false false)) k) e
        (de_init (lift_empty (T:=T) (empty_deser (attrs_of ty) false false)) h e)).
      { apply lift_start; [reflexivity|]. apply empty_start. apply AQ. }
      rewrite flattened_direct. destruct (direct ff attributed min max c) eqn:DI.
      + destruct c.
        * destruct ms as [|m ms'] eqn:EMS; [exact EM|]. rewrite <- EMS in *. apply lift_start; [reflexivity|].
          apply (seq_element_start _ (AQ ty) true no_attrs false false ms n MS); [rewrite EMS; discriminate|lia|reflexivity].
        * apply lift_start; [reflexivity|].
          apply (enum_element_start _ (AQ ty) true false false false ms n MS); [discriminate| |lia|reflexivity].
          intros _ m IN KG. unfold ms in IN. apply in_map_iff in IN. destruct IN as (p & <- & IN).
          rewrite forallb_forall in S. specialize (S p IN).
          destruct p as [pmin pmax ns name pty|pmin pmax pc pps]; [discriminate KG|].
          destruct pc; try (left; apply group_member_late; reflexivity). right.
          cbn [inner_choice] in S.
          assert (MX : pmax <> Bounded 1 /\ filled_up pmin pmax CChoice pps = false).
          { destruct pmax as [|[|[|x]]]; cbn [negb] in S; try discriminate S; (split; [discriminate|]);
              destruct (filled_up _ _ _ _); (reflexivity || discriminate S). }
          destruct MX as [M1 FU]. split; [|apply member_cap; exact FU].
          unfold single, m_occ. cbn [DocModel.member_of m_min m_max m_opt]. unfold from_occurs.
          destruct pmin as [|[|y]], pmax as [|[|[|x]]]; try reflexivity; try congruence; cbn; destruct (Nat.eqb _ _); reflexivity.
        * destruct ms as [|m ms'] eqn:EMS; [exact EM|]. rewrite <- EMS in *. apply lift_start; [reflexivity|].
          apply (all_element_start _ (AQ ty) true no_attrs false ms n MS); [|lia|reflexivity].
          apply members_caps. exact S.
      + destruct (has_content min max ps) eqn:HC; [|exact EM]. apply lift_start; [reflexivity|].
        unfold has_content in HC.
        assert (NO : from_occurs min max <> ONone) by (intros E; rewrite E in HC; discriminate).
        assert (NP : ps <> []) by (intros ->; destruct (from_occurs min max); discriminate).
        assert (NE : ms <> []) by (unfold ms; destruct ps; congruence || discriminate).
        assert (DQ : default_quiet c (defaultable_group c ps) ms) by (apply (content_default_quiet _ n); auto).
        assert (NC : no_caps c ms) by (destruct c; cbn; auto; apply members_caps; exact S).
        apply (cdes_element_start _ (AQ ty) true no_attrs (content_member no_attrs min max c (defaultable_group c ps) ms) n).
        * apply content_safe; auto.
        * discriminate.
        * intros _. destruct c; try (left; apply raw_late; reflexivity). right.
          destruct (cap (content_member no_attrs min max CChoice (defaultable_group CChoice ps) ms)) as [x|] eqn:C; [|reflexivity]. exfalso.
          pose proof C as C'. apply cap_static in C'. destruct C' as (O & M & X). cbn in M. subst max.
          unfold m_occ in O. cbn [content_member m_min m_max m_opt] in O.
          assert (MIN : min = x).
          { unfold from_occurs in O. destruct min as [|[|y]], x as [|[|z]]; cbn in O; try discriminate; try lia.
            destruct (Nat.eqb_spec y z); [congruence|discriminate]. }
          subst min. unfold filled_up in S. rewrite Nat.eqb_refl in S. destruct (Nat.leb_spec 2 x); [|lia]. cbn [andb] in S.
          unfold cap in C. cbn [content_member m_default] in C. unfold raw_default in C. rewrite defaultable_plain in C.
          destruct (plainly_empty CChoice ps); [discriminate S|]. destruct (m_occ _); discriminate.
        * lia.
        * reflexivity.
  Qed.

  (** ** The driver *)
  Lemma run_safe (des : deser (val T A) (dst T A)) n blank :
    (forall k h e, k < n -> start_ok false (alive des k) e (de_init des h e)) ->
    forall evs v, length evs <= n -> match v_des v with Some d => alive des (length evs) d | None => True end ->
    driver_run des blank v evs <> RPanic.
  Proof.
    intros SO. induction evs as [|e evs IH]; intros v L AL; [discriminate|]. cbn [driver_run length] in *.
    unfold driver_step. destruct (dh_event (v_helper v) e) as [h|]; [|discriminate].
    destruct (handle_skip (v_skip v) e) as [skip [e'|]].
    2:{ apply IH; [lia|]. cbn [v_des]. destruct (v_des v); [apply alive_less; exact AL|exact I]. }
    destruct (v_des v) as [d|].
    - pose proof (alive_step _ _ _ h e' AL) as SP. destruct (de_next des d h e') as [[o h']| |]; [|discriminate|elim SP].
      destruct SP as (B & _ & AR). destruct (unconsumed blank skip (o_any o) (into_event (o_ev o))) as [skip'| |] eqn:U; [|discriminate|].
      + destruct (o_art o) as [|t|d'] eqn:AO; [elim AR|discriminate|]. apply IH; [lia|]. cbn [v_des].
        destruct AR as [AR|(AN & e1 & EV & TG)]; [exact AR|]. rewrite AN, EV in U. cbn in U. destruct e1; discriminate.
      + exfalso. unfold unconsumed in U. destruct (into_event (o_ev o)) as [[]|]; try discriminate U; destruct (o_any o); try discriminate U.
        destruct (blank _) as [[]|]; discriminate.
    - pose proof (SO (length evs) h e' ltac:(lia)) as SP. destruct (de_init des h e') as [[o h']| |]; [|discriminate|elim SP].
      destruct SP as (B & AR). destruct (unconsumed blank skip (o_any o) (into_event (o_ev o))) as [skip'| |] eqn:U; [|discriminate|].
      + destruct (o_art o) as [|t|d'] eqn:AO; [apply IH; [lia|exact I]|discriminate|]. apply IH; [lia|]. cbn [v_des].
        destruct (is_tag e'); [apply AR|discriminate].
      + exfalso. unfold unconsumed in U. destruct (into_event (o_ev o)) as [[]|]; try discriminate U; destruct (o_any o); try discriminate U.
        destruct (blank _) as [[]|]; discriminate.
  Qed.

  Lemma document_safe n ty blank evs : length evs <= n ->
    driver_run (type_deser n ty) blank driver_new evs <> RPanic.
  Proof. intros L. apply (run_safe _ n); [intros; apply types_safe; assumption|exact L|exact I]. Qed.
End TypesSafe.
