(** Proofs about whole schemas. *)
From Verif Require Import Utf8 DocModel GenSpec TextSpec DocSpec GenProofs GenChoiceProofs GenContentProofs
  GenAllProofs GenTextProofs.
Local Open Scope string_scope.
Local Open Scope list_scope.

(** ** Deserializers of the common type *)
Section Lifts.
  Variable blank : bytes -> option bool.
  Context {T A W E : Type}.
  Notation val := (val T A).
  Notation dst := (dst T A).
  Variable inj : W -> val.
  Variable up : E -> dst.
  Variable down : dst -> option E.
  Hypothesis DU : forall s, down (up s) = Some s.
  Variable d : deser W E.
  Notation L := (lift inj up down d).

  Lemma feeds_lift s h evs art h' : feeds blank d s h evs art h' ->
    feeds blank L (up s) h evs (lift_art inj up art) h'.
  Proof.
    induction 1 as [s h e h1 art ev any h2 E1 E2 C N|s h e h1 s' ev any h2 evs art h3 E1 E2 C F IH].
    - eapply feeds_last; [exact E1|cbn [de_next lift]; rewrite DU, E2; reflexivity|exact C|destruct art; [elim N; reflexivity| |]; discriminate].
    - eapply feeds_step; [exact E1|cbn [de_next lift]; rewrite DU, E2; reflexivity|exact C|exact IH].
  Qed.

  Lemma begins_lift start h evs art h' : begins blank d start h evs art h' ->
    begins blank L (fun h e => lift_result inj up (start h e)) h evs (lift_art inj up art) h'.
  Proof.
    intros [h0 e h1 art0 ev any h2 E1 E2 C N|h0 e h1 s ev any h2 evs0 art0 h3 E1 E2 C F].
    - eapply begins_one; [exact E1|cbv beta; rewrite E2; reflexivity|exact C|destruct art0; [elim N; reflexivity| |]; discriminate].
    - eapply begins_more; [exact E1|cbv beta; rewrite E2; reflexivity|exact C|exact (feeds_lift _ _ _ _ _ F)].
  Qed.

  Lemma reads_lift h evs w h' : reads_element blank d h evs w h' -> reads_element blank L h evs (inj w) h'.
  Proof. intros R. exact (begins_lift _ _ _ _ _ R). Qed.

  Lemma done_lift v more st : done_with blank d v more st -> done_with blank L (inj v) more (up st).
  Proof.
    intros (inv & I0 & I1). exists (fun x => exists s, x = up s /\ inv s). split; [exists st; auto|].
    intros x (s & -> & IS). destruct (I1 s IS) as (F & EN & TG & IG). split; [|split; [|split]].
    - intros h. cbn [de_finish lift]. rewrite DU, F. reflexivity.
    - intros h n. destruct (EN h n) as (any & E1). exists any. cbn [de_next lift]. rewrite DU, E1. reflexivity.
    - intros h e TE NF. destruct (TG h e TE NF) as (art & any & E1 & C). exists (lift_art inj up art), any.
      split; [cbn [de_next lift]; rewrite DU, E1; reflexivity|].
      destruct C as [-> |(d' & -> & F')]; [left; reflexivity|right]. exists (up d'). split; [reflexivity|].
      intros h0. cbn [de_finish lift]. rewrite DU, F'. reflexivity.
    - intros h e IE. destruct (IG h e IE) as (d' & ev & any & E1 & C & ID). exists (up d'), ev, any.
      split; [cbn [de_next lift]; rewrite DU, E1; reflexivity|]. split; [exact C|]. exists d'. auto.
  Qed.

  Lemma complete_lift v more art : complete blank d v more art -> complete blank L (inj v) more (lift_art inj up art).
  Proof.
    intros [-> |(s & -> & D)]; [left; reflexivity|right]. exists (up s). split; [reflexivity|exact (done_lift _ _ _ D)].
  Qed.

  Lemma implements_lift start l l' : implements blank d start l ->
    (forall x, l_first l x <-> l_first l' x) ->
    (forall h evs v more h', l_occ l' h evs v more h' -> exists w (more' : labels),
      v = inj w /\ (forall x, more' x -> more x) /\ l_occ l h evs w more' h') ->
    implements blank L (fun h e => lift_result inj up (start h e)) l'.
  Proof.
    intros [RD RF] FI OC.
    assert (FT : forall h e, fits h e (l_first l) <-> fits h e (l_first l')).
    { intros h e. split; intros (x & X & C); exists x; (split; [apply FI; exact X|exact C]). }
    split.
    - intros h evs v more h' O. destruct (OC _ _ _ _ _ O) as (w & more' & -> & SUB & O').
      destruct (RD _ _ _ _ _ O') as (BT & FS & art & BG & CO). split; [exact BT|]. split.
      + intros e rest h1 E1 E2. apply FT. exact (FS e rest h1 E1 E2).
      + exists (lift_art inj up art). split; [exact (begins_lift _ _ _ _ _ BG)|].
        apply complete_lift. destruct CO as [-> |(s & -> & (inv & I0 & I1))]; [left; reflexivity|right].
        exists s. split; [reflexivity|]. exists inv. split; [exact I0|]. intros d0 ID.
        destruct (I1 d0 ID) as (F & EN & TG & IG). split; [exact F|]. split; [exact EN|]. split; [|exact IG].
        intros h0 e TE NF. apply TG; [exact TE|]. intros (x & X & C). apply NF. exists x. split; [exact (SUB x X)|exact C].
    - intros h e TE NF. destruct (RF h e TE) as (any & E1).
      + intros X. apply NF, FT, X.
      + exists any. cbv beta. rewrite E1. reflexivity.
  Qed.

  Lemma ignores_lift start : ignores blank start -> ignores (D:=dst) blank (fun h e => lift_result inj up (start h e)).
  Proof.
    intros IG h e IE. destruct (IG h e IE) as (ev & any & E1 & C). exists ev, any. cbv beta. rewrite E1. auto.
  Qed.
End Lifts.

(** ** Particles that may be absent *)

Fixpoint particle_ind' (P : particle -> Prop)
  (HE : forall min max ns name ty, P (PElement min max ns name ty))
  (HG : forall min max c ps, Forall P ps -> P (PGroup min max c ps)) (p : particle) : P p :=
  match p with
  | PElement min max ns name ty => HE min max ns name ty
  | PGroup min max c ps =>
      HG min max c ps
        ((fix all l : Forall P l :=
            match l with [] => Forall_nil P | x :: l' => Forall_cons x (particle_ind' P HE HG x) (all l') end) ps)
  end.

Lemma defaultable_absent p : defaultable_element p = plainly_absent p.
Proof.
  induction p as [min max ns name ty|min max c ps IH] using particle_ind'; cbn [defaultable_element plainly_absent p_min].
  - apply Bool.orb_false_r.
  - f_equal. assert (E : forallb defaultable_element ps = forallb plainly_absent ps).
    { clear - IH. induction IH as [|p ps E F IH]; [reflexivity|]. cbn. rewrite E, IH. reflexivity. }
    rewrite E. destruct c; cbn [is_choice negb orb]; rewrite ?Bool.andb_true_r; auto using Bool.andb_comm.
Qed.

Lemma defaultable_plain c ps : defaultable_group c ps = plainly_empty c ps.
Proof.
  unfold defaultable_group, plainly_empty.
  assert (E : forallb defaultable_element ps = forallb plainly_absent ps).
  { induction ps as [|p ps IH]; [reflexivity|]. cbn. rewrite defaultable_absent, IH. reflexivity. }
  rewrite E. destruct c; cbn [is_choice negb orb]; rewrite ?Bool.andb_true_r; auto using Bool.andb_comm.
Qed.

Lemma once_occurs min max : once min max = true <-> min = 1 /\ max = Bounded 1.
Proof.
  destruct min as [|[|min]], max as [|[|[|m]]]; cbn; split; intros H; try discriminate H; try (destruct H; discriminate); auto;
    destruct H as [H1 H2]; try discriminate H1; try discriminate H2.
Qed.

Lemma single_once min max : from_occurs min max = OSingle <-> once min max = true.
Proof.
  rewrite once_occurs. split.
  - destruct min as [|[|min]], max as [|[|[|m]]]; cbn; intros H; try discriminate H; auto;
      destruct (Nat.eqb _ _); discriminate H.
  - intros [-> ->]. reflexivity.
Qed.

Lemma occ_min min max :
  match (match from_occurs min max with OSingle => OSingle | o => o end) with OOptional => 0 | _ => min end = min.
Proof.
  destruct min as [|[|min]], max as [|[|[|m]]]; cbn; try reflexivity;
    repeat match goal with |- context [if ?b then _ else _] => destruct b end; reflexivity.
Qed.

Section Absent.
  Context {T A : Type}.
  Variable blank : bytes -> option bool.
  Variable ff : flat_flags.
  Variable no_attrs : A.
  Notation absent := (absent (T:=T) ff no_attrs).
  Notation no_elements := (no_elements (T:=T) no_attrs).

  Lemma all_some_iff {X} (l : list (option X)) : all_some l <> None <-> Forall (fun x => x <> None) l.
  Proof.
    induction l as [|[x|] l IH]; cbn.
    - split; [constructor|discriminate].
    - destruct (all_some l); split; intros H; try discriminate.
      + constructor; [discriminate|apply IH; discriminate].
      + elim H; reflexivity.
      + inversion H as [|? ? H1 H2]. apply IH in H2. elim H2; reflexivity.
    - split; [intros H; elim H; reflexivity|intros H; inversion H as [|? ? H1 H2]; elim H1; reflexivity].
  Qed.

  Lemma first_some_iff {X} (l : list (option X)) : forall i, first_some i l <> None <-> Exists (fun x => x <> None) l.
  Proof.
    induction l as [|[x|] l IH]; intros i; cbn.
    - split; [intros H; elim H; reflexivity|intros H; inversion H].
    - split; [intros _; constructor; discriminate|discriminate].
    - rewrite IH. split; [intros H; apply Exists_cons_tl, H|intros H; inversion H as [? ? H1|? ? H1]; [elim H1; reflexivity|exact H1]].
  Qed.

  Lemma no_elements_iff c l : no_elements c l <> None <->
    (if is_choice c then Exists (fun x => x <> None) l else Forall (fun x => x <> None) l).
  Proof.
    unfold DocSpec.no_elements. destruct (is_choice c).
    - rewrite <- (first_some_iff l 0). destruct (first_some 0 l) as [[i x]|]; split; intros H; try discriminate; elim H; reflexivity.
    - rewrite <- (all_some_iff l). destruct (all_some l); split; intros H; try discriminate; elim H; reflexivity.
  Qed.

  Lemma absent_iff p : check_element p = true <-> absent p <> None.
  Proof.
    induction p as [min max ns name ty|min max c ps IH] using particle_ind'; cbn [check_element DocSpec.absent p_min].
    - rewrite Bool.orb_false_r. destruct (Nat.eqb min 0); split; intros H; try discriminate; auto; elim H; reflexivity.
    - destruct (Nat.eqb min 0); cbn [orb]; [split; intros; [discriminate|reflexivity]|].
      assert (E : no_elements c (map absent ps) <> None <->
        (if is_choice c then existsb check_element ps else forallb check_element ps) = true).
      { rewrite no_elements_iff. destruct (is_choice c).
        - rewrite Exists_exists, existsb_exists. rewrite Forall_forall in IH. split.
          + intros (x & Hx & N). apply in_map_iff in Hx as (p & <- & Hp). exists p. split; [exact Hp|apply (IH p Hp), N].
          + intros (p & Hp & C). exists (absent p). split; [apply in_map, Hp|apply (IH p Hp), C].
        - rewrite Forall_forall, forallb_forall. rewrite Forall_forall in IH. split.
          + intros H p Hp. apply (IH p Hp). apply H, in_map, Hp.
          + intros H x Hx. apply in_map_iff in Hx as (p & <- & Hp). apply (IH p Hp), H, Hp. }
      rewrite <- E. destruct (no_elements c (map absent ps)); split; intros H; try discriminate; auto.
  Qed.

  Lemma lowered_iff min max c ps : lowered (PGroup min max c ps) = true <->
    is_choice c = true /\ no_elements c (map absent ps) <> None.
  Proof.
    cbn [lowered]. rewrite Bool.andb_true_iff. split; intros [C H]; (split; [exact C|]).
    - apply no_elements_iff. rewrite C. apply existsb_exists in H as (p & Hp & HC).
      apply Exists_exists. exists (absent p). split; [apply in_map, Hp|apply absent_iff, HC].
    - apply no_elements_iff in H. rewrite C in H. apply Exists_exists in H as (x & Hx & N).
      apply in_map_iff in Hx as (p & <- & Hp). apply existsb_exists. exists p. split; [exact Hp|apply absent_iff, N].
  Qed.

  Lemma plainly_some p : plainly_absent p = true -> absent p <> None.
  Proof.
    induction p as [min max ns name ty|min max c ps IH] using particle_ind'; cbn [plainly_absent DocSpec.absent].
    - intros ->. discriminate.
    - destruct (Nat.eqb min 0); [discriminate|]. cbn [orb]. intros H. apply andb_prop in H as [F C].
      assert (AL : Forall (fun x => x <> None) (map absent ps)).
      { apply Forall_forall. intros x Hx. apply in_map_iff in Hx as (p & <- & Hp). rewrite Forall_forall in IH.
        apply (IH p Hp). rewrite forallb_forall in F. exact (F p Hp). }
      assert (N : no_elements c (map absent ps) <> None).
      { apply no_elements_iff. destruct (is_choice c); [|exact AL]. cbn in C.
        destruct ps as [|p ps]; [discriminate C|]. inversion AL; subst. apply Exists_cons_hd. assumption. }
      destruct (no_elements c (map absent ps)); [discriminate|elim N; reflexivity].
  Qed.

  Lemma plainly_no_elements c ps : plainly_empty c ps = true -> no_elements c (map absent ps) <> None.
  Proof.
    unfold plainly_empty. intros H. apply andb_prop in H as [F C]. apply no_elements_iff.
    assert (AL : Forall (fun x => x <> None) (map absent ps)).
    { apply Forall_forall. intros x Hx. apply in_map_iff in Hx as (p & <- & Hp). apply plainly_some.
      rewrite forallb_forall in F. exact (F p Hp). }
    destruct (is_choice c); [|exact AL]. cbn in C.
    destruct ps as [|p ps]; [discriminate C|]. inversion AL; subst. apply Exists_cons_hd. assumption.
  Qed.

  Variable reads : nat -> dhelper -> list event -> val T A -> dhelper -> Prop.
  Notation slot_of := (slot_of blank ff no_attrs reads).

  Lemma absent_settled p vals : absent p = Some vals -> settled (slot_of p) [] vals.
  Proof.
    destruct p as [min max ns name ty|min max c ps]; cbn [DocSpec.absent DocSpec.slot_of].
    - destruct (Nat.eqb min 0) eqn:E; [|discriminate]. intros [= <-]. apply Nat.eqb_eq in E. left. cbn. split; [lia|reflexivity].
    - destruct (Nat.eqb min 0) eqn:E.
      + intros [= <-]. apply Nat.eqb_eq in E. left. cbn [s_min length].
        destruct (no_elements c (map absent ps)); [destruct (is_choice c && once min max)|]; split; try lia; reflexivity.
      + destruct (no_elements c (map absent ps)) as [v|] eqn:NE; [|discriminate]. intros [= <-].
        destruct (is_choice c && once min max) eqn:CO.
        * left. cbn [s_min length]. split; [lia|reflexivity].
        * right. exists (packed ff no_attrs c v). cbn [s_default s_min length]. split; [reflexivity|]. rewrite Nat.sub_0_r. reflexivity.
  Qed.
End Absent.

(** ** Groups and members *)
Section Members.
  Context {T A : Type}.
  Notation val := (val T A).
  Notation dst := (dst T A).
  Variable blank : bytes -> option bool.
  Variable ff : flat_flags.
  Variable no_attrs : A.
  Variable gen : nat -> deser val dst.
  Variable reads : nat -> dhelper -> list event -> val -> dhelper -> Prop.
  Hypothesis RG : forall ty h evs v h', reads ty h evs v h' ->
    reads_element blank (gen ty) h evs v h' /\ begins_with_tag evs.
  Notation absent := (absent (T:=T) ff no_attrs).
  Notation no_elements := (no_elements (T:=T) no_attrs).
  Notation slot_of := (slot_of blank ff no_attrs reads).
  Notation member_of := (member_of ff no_attrs gen).
  Notation raw_lang := (raw_lang (T:=T) blank no_attrs).
  Notation raw_group := (raw_group (T:=T) no_attrs).
  Notation raw_default := (raw_default (T:=T) no_attrs).
  Notation group_deser := (group_deser (T:=T) ff no_attrs).
  Notation content_member := (content_member (T:=T) no_attrs).

  Lemma raw_begins c ss h evs v more h' : l_occ (raw_lang c ss) h evs v more h' -> begins_with_tag evs.
  Proof.
    intros [_ H]. destruct c; [destruct H as (fields & _ & B & _)|destruct H as (i & vals & _ & B & _)|destruct H as (fields & _ & B & _)]; exact B.
  Qed.

  Section Group.
    Variable c : compositor.
    Variable dfl : bool.
    Variable ms : list (member val dst).
    Variable ss : list (slot val).
    Hypothesis MO : Forall2 (member_ok blank) ms ss.
    Hypothesis NE : ms <> [].

    Lemma raw_implements : implements blank (raw_group c dfl ms) (de_init (raw_group c dfl ms)) (raw_lang c ss).
    Proof.
      destruct c.
      - apply (implements_lift blank _ _ _ (fun s => eq_refl) _ _ _ _ (sequence_group blank (any_attrs no_attrs) false no_attrs false false ms ss MO eq_refl NE)).
        + intros x. reflexivity.
        + intros h evs v more h' [_ (fields & -> & O)]. exists (no_attrs, fields), more. auto.
      - apply (implements_lift blank _ _ _ (fun s => eq_refl) _ _ _ _ (choice_group blank (any_attrs no_attrs) false false false dfl ms ss MO eq_refl)).
        + intros x. reflexivity.
        + intros h evs v more h' [_ (i & vals & -> & O)]. exists (i, vals), more. auto.
      - apply (implements_lift blank _ _ _ (fun s => eq_refl) _ _ _ _ (all_group blank (any_attrs no_attrs) false no_attrs false ms ss MO eq_refl)).
        + intros x. reflexivity.
        + intros h evs v more h' [_ (fields & -> & O)]. exists (no_attrs, fields), more. auto.
    Qed.

    Lemma raw_ignores : ignores blank (de_init (raw_group c dfl ms)).
    Proof.
      destruct c.
      - apply (ignores_lift blank _ _ _ (sequence_ignores blank (any_attrs no_attrs) false no_attrs false false ms ss MO NE)).
      - apply (ignores_lift blank _ _ _ (choice_ignores blank (any_attrs no_attrs) false false false dfl ms ss MO)).
      - apply (ignores_lift blank _ _ _ (all_ignores blank (any_attrs no_attrs) false no_attrs false ms ss MO)).
    Qed.

    (** The value of the group without elements. *)
    Variable ps : list particle.
    Hypothesis EM : ms = map member_of ps.
    Hypothesis ES : ss = map slot_of ps.
    Hypothesis ED : dfl = plainly_empty c ps.

    Lemma fields_absent h fields : all_some (map absent ps) = Some fields ->
      finish_fields ms (no_fields ms) h = Ok (fields, h).
    Proof.
      intros E. assert (LN : length fields = length ps).
      { revert fields E. clear. induction ps as [|p l IH]; intros fields E; cbn in E; [injection E as <-; reflexivity|].
        destruct (absent p); [|discriminate E]. destruct (all_some (map absent l)); [|discriminate E]. injection E as <-.
        cbn. rewrite (IH _ eq_refl). reflexivity. }
      apply (finish_fields_ok blank ms ss).
      - exact MO.
      - unfold no_fields. rewrite map_length, (Forall2_len _ _ _ MO). reflexivity.
      - rewrite LN, ES, map_length. reflexivity.
      - intros k s EK. rewrite ES in EK. rewrite nth_error_map in EK.
        destruct (nth_error ps k) as [p|] eqn:EP; [|discriminate EK]. injection EK as <-.
        assert (N0 : nth k (no_fields ms) [] = []).
        { unfold no_fields. rewrite EM, map_map. clear. revert k. induction ps as [|q l IH]; intros [|k]; cbn; auto. }
        rewrite N0. split; [|cbn; destruct (s_max _); [exact I|lia]].
        apply absent_settled. clear N0. revert fields E k EP LN. clear. induction ps as [|q l IH]; intros fields E k EP LN.
        + destruct k; discriminate EP.
        + cbn in E. destruct (absent q) eqn:AQ; [|discriminate E]. destruct (all_some (map absent l)) eqn:AS; [|discriminate E].
          injection E as <-. destruct k as [|k]; cbn in *; [injection EP as <-; exact AQ|]. apply (IH _ eq_refl); auto.
    Qed.

    Lemma raw_default_ok : match raw_default c dfl ms with
      | Some df => match no_elements c (map absent ps) with Some v => forall h, df h = Ok (v, h) | None => False end
      | None => True
      end.
    Proof.
      unfold DocModel.raw_default. destruct dfl eqn:D; [|exact I].
      pose proof (plainly_no_elements (T:=T) ff no_attrs c ps (eq_sym ED)) as N.
      destruct (no_elements c (map absent ps)) as [v|] eqn:EV; [|elim N; reflexivity]. intros h.
      unfold DocSpec.no_elements in EV. destruct c; cbn [is_choice] in EV; cbn [de_finish DocModel.raw_group lift_sequence lift_choice lift_all lift raw_new].
      - destruct (all_some (map absent ps)) as [fields|] eqn:AS; [|discriminate EV]. injection EV as <-.
        cbn [de_finish seq_deser]. unfold seq_finish. cbn [seq_new sd_fields sd_state sd_attrs seq_finish_state obind].
        rewrite (fields_absent h fields AS). reflexivity.
      - unfold plainly_empty in ED. symmetry in ED. apply andb_prop in ED as [F LE]. cbn in LE. apply Nat.eqb_eq in LE.
        destruct ps as [|p [|q l]]; try discriminate LE. cbn [map] in *. subst ms ss. inversion MO as [|m s ms' ss' MO1 _]; subst.
        cbn [first_some] in EV. destruct (absent p) as [vals|] eqn:AP; [|discriminate EV]. injection EV as <-.
        cbn [de_finish enum_deser]. unfold enum_finish. cbn [enum_finish_state].
        rewrite (default_ok blank _ _ vals h MO1 (absent_settled blank ff no_attrs reads p vals AP)). reflexivity.
      - destruct (all_some (map absent ps)) as [fields|] eqn:AS; [|discriminate EV]. injection EV as <-.
        cbn [de_finish all_deser]. unfold all_finish. cbn [all_new ld_fields ld_state ld_attrs all_finish_state obind].
        rewrite (fields_absent h fields AS). reflexivity.
    Qed.

    (** The content of a type as a member. *)
    Lemma content_member_ok min max d : bounds_ok min max = true ->
      (min = 0 \/ match raw_default c dfl ms, d with
        | Some df, Some v => forall h, df h = Ok (v, h)
        | None, None => True
        | _, _ => False
        end) ->
      member_ok blank (content_member min max c dfl ms) (Slot (raw_lang c ss) min max d).
    Proof.
      intros B D. split; [exact raw_ignores|]. split; [intros any; exact raw_implements|].
      cbn [s_max s_min s_default m_max m_min m_default DocModel.content_member].
      split; [unfold bounds_ok in B; destruct max; [exact I|apply andb_prop in B as [B1 B2]; apply Nat.leb_le in B1, B2; lia]|].
      split; [reflexivity|]. split; [|exact D].
      unfold m_occ. cbn [m_min m_max m_opt]. symmetry. apply occ_min.
    Qed.

    Notation group_lang := (group_lang (T:=T) blank ff no_attrs).
    Definition inner_slot : slot val :=
      Slot (raw_lang c ss) 1 (Bounded 1) (if dfl then no_elements c (map absent ps) else None).

    Lemma inner_ok : member_ok blank (content_member 1 (Bounded 1) c dfl ms) inner_slot.
    Proof.
      apply content_member_ok; [reflexivity|]. right. pose proof raw_default_ok as R.
      unfold DocModel.raw_default in *. destruct dfl; [|exact I]. destruct (no_elements c (map absent ps)); [exact R|elim R].
    Qed.

    Lemma group_implements : implements blank (group_deser c dfl ms) (de_init (group_deser c dfl ms)) (group_lang c ss).
    Proof.
      unfold DocModel.group_deser. destruct (flat_for ff c) eqn:FF.
      - destruct raw_implements as [RD RF]. split; [|exact RF].
        intros h evs v more h' (w & -> & O). unfold packed. rewrite FF. exact (RD _ _ _ _ _ O).
      - apply (implements_lift blank _ _ _ (fun s => eq_refl) _ _ _ _
          (content_group blank (any_attrs no_attrs) false no_attrs _ _ inner_ok eq_refl eq_refl
             (or_intror (or_intror (or_introl eq_refl))))).
        + intros x. reflexivity.
        + intros h evs v more h' (w & -> & O). unfold packed. rewrite FF.
          exists (no_attrs, [w]), (still_next [inner_slot] (0, [[w]], more)). split; [reflexivity|]. split.
          * intros x [X|[(s & E & R & _)|(k & s & L & E & _)]]; [exact X| |].
            -- cbn in E. injection E as <-. unfold room in R. cbn in R. lia.
            -- destruct k as [|[|k]]; try lia; cbn in E; discriminate E.
          * split; [exact (raw_begins _ _ _ _ _ _ _ O)|]. split; [exact (proj1 O)|]. split; [reflexivity|].
            exists (0, [[w]], more). split; [|split; [reflexivity|]].
            -- replace evs with (evs ++ [])%list by apply app_nil_r.
               apply (follows_item blank [inner_slot] 0 [[]] no_labels h evs 0 inner_slot w more h' [] (0, [[w]], more) h'); [reflexivity|exact O| |apply follows_stop].
               intros e evs' h0 _ _. split; [intros (l & [] & _)|]. exists inner_slot. split; [reflexivity|]. left. split; [reflexivity|].
               unfold room. cbn. lia.
            -- cbn. split; [reflexivity|]. split; [reflexivity|]. intros [|k] s E; [injection E as <-; left; cbn; auto|destruct k; discriminate E].
    Qed.

    Lemma group_ignores : ignores blank (de_init (group_deser c dfl ms)).
    Proof.
      unfold DocModel.group_deser. destruct (flat_for ff c) eqn:FF; [exact raw_ignores|].
      apply (ignores_lift blank _ _ _ (content_ignores blank (any_attrs no_attrs) false no_attrs _ _ inner_ok eq_refl)).
    Qed.

    Lemma group_default_ok : match group_default ff no_attrs c dfl ms with
      | Some df => match no_elements c (map absent ps) with Some v => forall h, df h = Ok (packed ff no_attrs c v, h) | None => False end
      | None => True
      end.
    Proof.
      pose proof raw_default_ok as R. unfold group_default, DocModel.raw_default in *. destruct dfl eqn:D; [|exact I].
      destruct (no_elements c (map absent ps)) as [v|]; [|exact R]. intros h. unfold packed, DocModel.group_deser, group_new.
      destruct (flat_for ff c); [apply R|].
      cbn [de_finish lift_content lift cdes_deser]. unfold cdes_finish. cbn [cd_vals cd_state cd_attrs content_finish_state obind].
      unfold content_finish_vals. cbn [m_occ DocModel.content_member m_min m_max m_opt from_occurs m_default].
      unfold DocModel.raw_default. cbn [hd_error]. unfold finish_default. rewrite R. reflexivity.
    Qed.
  End Group.

  Lemma member_of_ok p : tame (T:=T) ff no_attrs p = true -> member_ok blank (member_of p) (slot_of p).
  Proof.
    induction p as [min max ns name ty|min max c ps IH] using particle_ind'; cbn [tame]; intros TM.
    - cbn [DocModel.member_of DocSpec.slot_of]. split; [reflexivity|]. split.
      + intros any. apply element_implements. cbn [m_deser]. exact (RG ty).
      + cbn [s_max s_min s_default m_max m_min m_default].
        split; [unfold bounds_ok in TM; destruct max; [exact I|apply andb_prop in TM as [B1 B2]; apply Nat.leb_le in B1, B2; lia]|].
        split; [reflexivity|]. split; [|right; exact I].
        unfold m_occ. cbn [m_min m_max m_opt]. symmetry. apply occ_min.
    - apply andb_prop in TM as [TM DF]. apply andb_prop in TM as [TM TS]. apply andb_prop in TM as [TB TN].
      assert (MO : Forall2 (member_ok blank) (map member_of ps) (map slot_of ps)).
      { clear - IH TS. induction IH as [|p ps H F IH]; [constructor|]. cbn in *. apply andb_prop in TS as [T1 T2]. constructor; auto. }
      assert (NE : map member_of ps <> []) by (destruct ps; [discriminate TN|discriminate]).
      pose proof (group_implements c (defaultable_group c ps) _ _ MO NE ps eq_refl eq_refl (defaultable_plain c ps)) as GI.
      pose proof (group_ignores c (defaultable_group c ps) _ _ MO NE ps eq_refl eq_refl (defaultable_plain c ps)) as GG.
      pose proof (group_default_ok c (defaultable_group c ps) _ _ MO NE ps eq_refl eq_refl (defaultable_plain c ps)) as GD.
      cbn [DocModel.member_of DocSpec.slot_of]. split; [exact GG|]. split; [intros any; exact GI|].
      cbn [s_max s_min s_default m_max m_min m_default].
      split; [unfold bounds_ok in TB; destruct max; [exact I|apply andb_prop in TB as [B1 B2]; apply Nat.leb_le in B1, B2; lia]|].
      split; [reflexivity|].
      pose proof (lowered_iff (T:=T) ff no_attrs min max c ps) as LI.
      split.
      + unfold m_occ. cbn [m_min m_max m_opt].
        destruct (once min max) eqn:ON.
        * apply once_occurs in ON as [-> ->]. cbn [from_occurs].
          destruct (lowered (PGroup 1 (Bounded 1) c ps)).
          -- destruct (proj1 LI eq_refl) as [-> N]. destruct (no_elements c (map absent ps)); [reflexivity|elim N; reflexivity].
          -- destruct (no_elements c (map absent ps)); [|reflexivity]. destruct (is_choice c); [|reflexivity].
             assert (false = true) by (apply LI; split; [reflexivity|discriminate]). discriminate.
        * rewrite Bool.andb_false_r.
          replace (match no_elements c (map absent ps) with Some _ => min | None => min end) with min by (destruct (no_elements c (map absent ps)); reflexivity).
          destruct (from_occurs min max) eqn:FO; try reflexivity.
          -- apply single_once in FO. congruence.
          -- pose proof (occ_min min max) as OM. rewrite FO in OM. symmetry. exact OM.
      + unfold may_be_empty in DF.
        destruct (no_elements c (map absent ps)) as [v|] eqn:EV.
        * destruct (Nat.eqb min 0) eqn:M0; [apply Nat.eqb_eq in M0; left; destruct (is_choice c && once min max); [reflexivity|exact M0]|].
          cbn [negb orb] in DF. destruct (is_choice c && once min max); [left; reflexivity|]. right. cbn in DF.
          unfold group_default in *. rewrite (defaultable_plain c ps), DF in *. exact GD.
        * right. unfold group_default in *. destruct (defaultable_group c ps); [elim GD|exact I].
  Qed.

  Lemma members_ok ps : forallb (tame (T:=T) ff no_attrs) ps = true ->
    Forall2 (member_ok blank) (map member_of ps) (map slot_of ps).
  Proof.
    induction ps as [|p ps IH]; cbn; intros H; [constructor|]. apply andb_prop in H as [H1 H2].
    constructor; [exact (member_of_ok p H1)|exact (IH H2)].
  Qed.
End Members.
