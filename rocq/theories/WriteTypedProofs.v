(** Proofs for C77: what is read are values of the generated types. *)
From Coq Require Import Lia.
From Verif Require Import Utf8 WriteModel DocSpec GenSpec TextSpec WriteSpec.
From Verif Require Import GenProofs DocProofs DocTypeProofs WriteProofs WriteBackProofs.
Local Open Scope string_scope.
Local Open Scope list_scope.

Definition opened (h : dhelper) (evs : list event) : Prop :=
  exists e rest h1, evs = e :: rest /\ dh_event h e = Some h1.

Section Counts.
  Context {V : Type}.
  Variable blank : bytes -> option bool.
  Variable ss : list (slot V).
  Variable P : slot V -> V -> Prop.
  Hypothesis typed_occ : forall s h evs v more h', In s ss -> l_occ (s_lang s) h evs v more h' ->
    P s v /\ opened h evs.
  Hypothesis bounded : forall s, In s ss -> match s_max s with Bounded m => 1 <= m | Unbounded => True end.

  Definition in_bounds (got : list (list V)) : Prop := length got = length ss /\
    forall k s, nth_error ss k = Some s -> Forall (P s) (nth k got []) /\ within s (length (nth k got [])).

  Lemma bounds_add j s v got : nth_error ss j = Some s -> in_bounds got -> P s v ->
    within s (S (length (nth j got []))) -> in_bounds (add_value j v got).
  Proof.
    intros Ns [L G] Pv Wi. split; [rewrite add_length; exact L|]. intros k t Nk. destruct (Nat.eq_dec j k) as [<-|Ne].
    - rewrite Ns in Nk. injection Nk as <-. rewrite add_same by (rewrite L; eapply nth_error_Some; congruence).
      destruct (G _ _ Ns) as [F _]. split; [apply Forall_app; auto|]. rewrite app_length, Nat.add_comm. exact Wi.
    - rewrite add_other by exact Ne. apply G, Nk.
  Qed.
  Lemma bounds_first : in_bounds (map (fun _ => []) ss).
  Proof.
    split; [apply map_length|]. intros k s Nk. rewrite nth_empty. split; [constructor|]. unfold within.
    destruct (s_max s); first [exact I|cbn; lia].
  Qed.

  Lemma follows_bounds p h evs p' h' : follows blank ss p h evs p' h' ->
    in_bounds (snd (fst p)) -> (forall k, fst (fst p) < k -> nth k (snd (fst p)) [] = []) ->
    in_bounds (snd (fst p')).
  Proof.
    induction 1 as [p h|p h e h1 evs p' h2 Ig D F IH|i got more h evs j s v more' h1 rest p' h2 Ns O On F IH]; intros G Z; [exact G|auto|].
    cbn [fst snd] in *. pose proof (nth_error_In _ _ Ns) as Is. destruct (typed_occ _ _ _ _ _ _ Is O) as [Pv [e [r [h0 [E D]]]]].
    destruct (On _ _ _ E D) as [_ [s' [Ns' Cs]]].
    assert (Wi : within s (S (length (nth j got []))) /\ i <= j).
    { unfold within. destruct Cs as [[-> Ro]|[Lt _]].
      - rewrite Ns in Ns'. injection Ns' as <-. unfold room in Ro. destruct (s_max s); (split; first [exact I|lia]).
      - rewrite (Z j) by exact Lt. specialize (bounded s Is). cbn [length]. destruct (s_max s); (split; first [exact I|lia]). }
    apply IH; [eapply bounds_add; [exact Ns|exact G|exact Pv|apply Wi]|].
    intros k K. rewrite add_other by lia. apply Z. lia.
  Qed.
  Lemma scattered_bounds p h evs p' h' : scattered blank ss p h evs p' h' ->
    in_bounds (snd (fst p)) -> in_bounds (snd (fst p')).
  Proof.
    induction 1 as [p h|p h e h1 evs p' h2 Ig D F IH|i got more h evs j s v more' h1 rest p' h2 Ns O Ro On F IH]; intros G; [exact G|auto|].
    cbn [fst snd] in *. pose proof (nth_error_In _ _ Ns) as Is. destruct (typed_occ _ _ _ _ _ _ Is O) as [Pv _].
    apply IH. eapply bounds_add; [exact Ns|exact G|exact Pv|]. unfold room in Ro. unfold within. destruct (s_max s); first [exact I|lia].
  Qed.

  Lemma follows_opened p h evs p' h' : follows blank ss p h evs p' h' -> begins_with_tag evs -> opened h evs.
  Proof.
    intros F Bg. destruct (follows_tag blank ss _ _ _ _ _ F Bg) as (i & got & mo & evs1 & rest & j & s & v & mo' & h1 & _ & -> & Ns & O & _).
    destruct (typed_occ _ _ _ _ _ _ (nth_error_In _ _ Ns) O) as [_ [e [r [h0 [-> D]]]]]. exists e, (r ++ rest), h0. auto.
  Qed.
  Lemma scattered_opened p h evs p' h' : scattered blank ss p h evs p' h' -> begins_with_tag evs -> opened h evs.
  Proof.
    intros F [e [r [-> Tg]]]. inversion F; subst.
    - match goal with K : ignorable _ _ |- _ => apply ignorable_kind in K; destruct K; congruence end.
    - match goal with K : l_occ _ _ _ _ _ _, N : nth_error ss _ = Some _, E : _ ++ _ = _ |- _ =>
        destruct (typed_occ _ _ _ _ _ _ (nth_error_In _ _ N) K) as [_ [e' [r' [h0 [-> D]]]]]; injection E as <- <- end.
      exists e', (r' ++ rest), h0. auto.
  Qed.

  (** So many values, and all of them of the type. *)
  Definition settled_ok (s : slot V) (vals : list V) : Prop :=
    Forall (P s) vals /\ s_min s <= length vals /\
    match s_max s with Bounded m => s_min s <= m -> length vals <= m | Unbounded => True end.
  Lemma settle_ok s got vals : (forall v, s_default s = Some v -> P s v) -> Forall (P s) got -> within s (length got) ->
    settled s got vals -> settled_ok s vals.
  Proof.
    intros D F Wi [[L ->]|[v [E ->]]].
    - split; [exact F|]. split; [exact L|]. unfold within in Wi. destruct (s_max s); auto.
    - split; [apply Forall_app; split; [exact F|]; apply Forall_forall; intros x I; apply repeat_spec in I; subst x; apply D, E|].
      rewrite app_length, repeat_length. split; [lia|]. unfold within in Wi. destruct (s_max s); [exact I|lia].
  Qed.
End Counts.

Section Typed.
  Context {T A : Type}.
  Notation val := (val T A).
  Variable blank : bytes -> option bool.
  Variable ff : flat_flags.
  Variable no_attrs : A.
  Variable reads : nat -> dhelper -> list event -> val -> dhelper -> Prop.
  Variable telement : nat -> val -> Prop.
  Hypothesis typed_elements : forall ty h evs v h', reads ty h evs v h' -> telement ty v.
  Notation slot_of := (slot_of blank ff no_attrs reads).
  Notation particle_typed := (particle_typed ff no_attrs telement).
  Notation field_typed := (field_typed ff no_attrs telement).
  Notation absent := (@absent T A ff no_attrs).
  Notation no_elements := (@no_elements T A no_attrs).
  Notation tame := (@tame T A ff no_attrs).

  Lemma count_occ p (vals : list val) n : bounds_ok (p_min p) (p_max p) = true -> n = s_min (slot_of p) ->
    n <= length vals -> match p_max p with Bounded m => n <= m -> length vals <= m | Unbounded => True end ->
    fits_occ (occ_of p) vals.
  Proof.
    intros B -> Lo Hi.
    assert (S0 : s_min (slot_of p) = p_min p \/ (s_min (slot_of p) = 0 /\ lowered p = true /\ once (p_min p) (p_max p) = true)).
    { destruct p as [|min max c ps]; [left; reflexivity|]. cbn [DocSpec.slot_of s_min p_min p_max].
      destruct (no_elements c (map absent ps)) eqn:En; [|left; reflexivity].
      destruct (is_choice c && once min max) eqn:Eo; [|left; reflexivity]. right. apply andb_true_iff in Eo as [Ec Eo].
      split; [reflexivity|]. split; [|exact Eo]. apply (lowered_iff (T:=T) ff no_attrs). split; [exact Ec|congruence]. }
    unfold occ_of, from_occurs. remember (p_min p) as a. remember (p_max p) as b. clear Heqa Heqb.
    destruct S0 as [E|[E [Lw On]]]; rewrite E in *.
    - unfold bounds_ok in B. destruct b as [|b]; [destruct a as [|[|a]]; exact I|].
      apply andb_true_iff in B as [B1 B2]. apply Nat.leb_le in B1, B2.
      destruct a as [|[|a]], b as [|[|b]]; try lia; cbn [fits_occ Nat.eqb]; try exact I; try (apply Hi; lia).
      + destruct (lowered p); cbn [fits_occ]; specialize (Hi ltac:(lia)); lia.
      + destruct (Nat.eqb a b) eqn:Eab; [|exact I]. apply Nat.eqb_eq in Eab. subst b. cbn [fits_occ]. specialize (Hi ltac:(lia)). lia.
    - apply once_occurs in On as [-> ->]. rewrite Lw. cbn [fits_occ]. apply Hi. lia.
  Qed.

  Definition slot_ok (p : particle) : Prop :=
    (forall h evs v more h', l_occ (s_lang (slot_of p)) h evs v more h' -> particle_typed p v /\ opened h evs) /\
    (forall v, s_default (slot_of p) = Some v -> particle_typed p v).

  Lemma tame_bounds p : tame p = true -> bounds_ok (p_min p) (p_max p) = true.
  Proof.
    destruct p as [min max ns name ty|min max c ps]; cbn [DocSpec.tame p_min p_max]; [auto|].
    intros H. apply andb_true_iff in H as [H _]. apply andb_true_iff in H as [H _]. apply andb_true_iff in H as [H _]. exact H.
  Qed.
  Lemma slot_max p : s_max (slot_of p) = p_max p.
  Proof. destruct p; reflexivity. Qed.

  Section Group.
    Variable ps : list particle.
    Hypothesis oks : forall p, In p ps -> slot_ok p.
    Hypothesis tames : forallb tame ps = true.
    Definition P (s : slot val) (v : val) : Prop := forall p, In p ps -> s = slot_of p -> particle_typed p v.

    Lemma group_occ s h evs v more h' : In s (map slot_of ps) -> l_occ (s_lang s) h evs v more h' -> P s v /\ opened h evs.
    Proof.
      intros I O. apply in_map_iff in I as [q [<- Iq]]. split; [|eapply (proj1 (oks q Iq)), O].
      intros p Ip E. rewrite E in O. eapply (proj1 (oks p Ip)), O.
    Qed.
    Lemma group_bounded s : In s (map slot_of ps) -> match s_max s with Bounded m => 1 <= m | Unbounded => True end.
    Proof.
      intros I. apply in_map_iff in I as [q [<- Iq]]. rewrite forallb_forall in tames. specialize (tames q Iq).
      apply tame_bounds in tames. rewrite slot_max. unfold bounds_ok in tames. destruct (p_max q); [exact I|].
      apply andb_true_iff in tames as [B _]. apply Nat.leb_le, B.
    Qed.
    Lemma group_default s v : In s (map slot_of ps) -> s_default s = Some v -> P s v.
    Proof. intros _ E p Ip ->. apply (proj2 (oks p Ip)), E. Qed.

    Lemma field_of_settled p got vals : In p ps -> Forall (P (slot_of p)) got -> within (slot_of p) (length got) ->
      settled (slot_of p) got vals -> field_typed p vals.
    Proof.
      intros Ip F Wi St. pose proof (in_map slot_of _ _ Ip) as Is.
      destruct (settle_ok P _ _ _ (fun v => group_default _ v Is) F Wi St) as [F' [Lo Hi]]. rewrite slot_max in Hi.
      rewrite forallb_forall in tames. split.
      - eapply count_occ; [apply tame_bounds, tames, Ip|reflexivity|exact Lo|exact Hi].
      - apply Forall_forall. intros v Iv. rewrite Forall_forall in F'. apply (F' v Iv p Ip eq_refl).
    Qed.
    Lemma fields_of_settled p vals : in_bounds (map slot_of ps) P (snd (fst p)) -> settled_at (map slot_of ps) p vals ->
      Forall2 (fun part vals => part vals) (map field_typed ps) vals.
    Proof.
      destruct p as [[i got] more]. cbn [fst snd]. intros [_ G] [Lg [Lv St]]. rewrite map_length in Lg, Lv.
      assert (Q : forall k p, nth_error ps k = Some p -> field_typed p (nth k vals [])).
      { intros k p Nk. assert (Nk' : nth_error (map slot_of ps) k = Some (slot_of p)) by (rewrite nth_error_map, Nk; reflexivity).
        destruct (G _ _ Nk') as [F Wi]. eapply field_of_settled; [eapply nth_error_In, Nk|exact F|exact Wi|apply St, Nk']. }
      clear St. revert vals Lv Q. clear. induction ps as [|p ps' IH]; intros [|v vals] L Q; try discriminate L; cbn [map]; constructor.
      - exact (Q 0 p eq_refl).
      - apply IH; [injection L as L; exact L|]. intros k q Nk. exact (Q (S k) q Nk).
    Qed.
    Lemma raw_typed c h evs v more h' : l_occ (raw_lang (T:=T) blank no_attrs c (map slot_of ps)) h evs v more h' ->
      group_typed c (map field_typed ps) v /\ opened h evs.
    Proof.
      intros [_ O]. destruct c.
      - destruct O as [fields [-> [Bg [p [F [_ [_ St]]]]]]]. cbn [snd] in St. split; [|eapply follows_opened; [apply group_occ|exact F|exact Bg]].
        cbn [group_typed]. split; [reflexivity|]. eapply fields_of_settled; [|exact St].
        eapply (follows_bounds blank _ P); [apply group_occ|apply group_bounded|exact F|apply bounds_first|]. intros k _. cbn [fst snd first_place]. apply nth_empty.
      - destruct O as [i [vals [-> [Bg [_ [s [Ns [[p [F [_ St]]] _]]]]]]]]. cbn [fst snd] in *.
        rewrite nth_error_map in Ns. destruct (nth_error ps i) as [q|] eqn:Nq; [|discriminate Ns]. injection Ns as <-.
        pose proof (nth_error_In _ _ Nq) as Iq. pose proof (in_map slot_of _ _ Iq) as Is.
        assert (O1 : forall s h evs v more h', In s [slot_of q] -> l_occ (s_lang s) h evs v more h' -> P s v /\ opened h evs).
        { intros s h1 e1 v1 m1 h1' [<-|[]]. apply group_occ, Is. }
        split; [|eapply follows_opened; [exact O1|exact F|exact Bg]].
        cbn [group_typed]. split; [reflexivity|]. exists (field_typed q). split; [rewrite nth_error_map, Nq; reflexivity|].
        destruct (follows_bounds blank [slot_of q] P O1) with (p := first_place [slot_of q]) (h := h) (evs := evs) (p' := p) (h' := h') as [_ G].
        { intros s [<-|[]]. apply group_bounded, Is. } { exact F. } { apply bounds_first. } { intros [|[|k]] _; reflexivity. }
        destruct p as [[i0 got] mo]. cbn [fst snd] in G. destruct (G 0 _ eq_refl) as [Fg Wi]. destruct St as [_ [_ St]].
        eapply field_of_settled; [exact Iq|exact Fg|exact Wi|apply (St 0 _ eq_refl)].
      - destruct O as [fields [-> [Bg [p [F [_ [_ St]]]]]]]. cbn [snd] in St. split; [|eapply scattered_opened; [apply group_occ|exact F|exact Bg]].
        cbn [group_typed]. split; [reflexivity|]. eapply fields_of_settled; [|exact St].
        eapply (scattered_bounds blank _ P); [apply group_occ|exact F|apply bounds_first].
    Qed.
    Lemma absent_typed p vals : In p ps -> absent p = Some vals -> field_typed p vals.
    Proof.
      intros Ip E. eapply field_of_settled; [exact Ip|constructor| |eapply (absent_settled blank), E].
      unfold within. destruct (s_max (slot_of p)); first [exact I|cbn; lia].
    Qed.
    Lemma empty_typed c v : no_elements c (map absent ps) = Some v -> group_typed c (map field_typed ps) v.
    Proof.
      unfold DocSpec.no_elements. destruct (is_choice c) eqn:Ec.
      - destruct (first_some 0 (map absent ps)) as [[i vals]|] eqn:Ef; [|discriminate]. intros E. injection E as <-.
        assert (G : forall (l : list (option (list val))) k j x, first_some k l = Some (j, x) -> k <= j /\ nth_error l (j - k) = Some (Some x)).
        { clear. induction l as [|[y|] l IH]; intros k j x E; [discriminate E|injection E as <- <-; rewrite Nat.sub_diag; auto|].
          destruct (IH _ _ _ E) as [L H]. split; [lia|]. replace (j - k) with (S (j - S k)) by lia. exact H. }
        apply G in Ef as [_ Ef]. rewrite Nat.sub_0_r, nth_error_map in Ef.
        destruct (nth_error ps i) as [p|] eqn:Ep; [|discriminate Ef]. injection Ef as Ef. cbn [group_typed]. split; [exact Ec|].
        exists (field_typed p). split; [rewrite nth_error_map, Ep; reflexivity|]. apply absent_typed; [eapply nth_error_In, Ep|exact Ef].
      - destruct (all_some (map absent ps)) as [fields|] eqn:Ef; [|discriminate]. intros E. injection E as <-.
        cbn [group_typed]. split; [exact Ec|].
        assert (Q : forall p vals, In p ps -> absent p = Some vals -> field_typed p vals) by (intros; apply absent_typed; assumption).
        revert fields Ef Q. clear. induction ps as [|p ps' IH]; cbn [map all_some]; intros fields Ef Q.
        + injection Ef as <-. constructor.
        + destruct (absent p) as [vals|] eqn:Ep; [|discriminate Ef]. destruct (all_some (map absent ps')) as [r|]; [|discriminate Ef].
          injection Ef as <-. constructor; [apply Q; [left; reflexivity|exact Ep]|]. apply IH; [reflexivity|]. intros q x Iq. apply Q. right; exact Iq.
    Qed.
  End Group.

  Lemma slots_ok p : tame p = true -> slot_ok p.
  Proof.
    induction p as [min max ns name ty|min max c ps IH] using particle_ind'; intros Tm.
    - split; [|intros v E; discriminate E]. intros h evs v more h' [[e [r [h1 [-> [D _]]]]] [_ R]].
      split; [eapply typed_elements, R|]. exists e, r, h1. auto.
    - cbn [DocSpec.tame] in Tm. apply andb_true_iff in Tm as [Tm _]. apply andb_true_iff in Tm as [_ Tm].
      assert (oks : forall p, In p ps -> slot_ok p).
      { intros p Ip. rewrite Forall_forall in IH. rewrite forallb_forall in Tm. apply IH, Tm; exact Ip. }
      split.
      + intros h evs v more h' [w [-> O]]. destruct (raw_typed ps oks Tm c _ _ _ _ _ O) as [Ty Op]. split; [|exact Op].
        exists w. split; [reflexivity|exact Ty].
      + cbn [DocSpec.slot_of s_default]. intros v E. destruct (no_elements c (map absent ps)) as [u|] eqn:En; [|discriminate E].
        injection E as <-. exists u. split; [reflexivity|]. exact (empty_typed ps oks Tm c u En).
  Qed.

  Lemma content_typed min max c ps h evs vals more h' : forallb tame ps = true -> bounds_ok min max = true ->
    repeated blank (content_slot blank ff no_attrs reads min max c ps) h evs vals more h' ->
    fits_occ (from_occurs min max) vals /\ Forall (group_typed c (map field_typed ps)) vals.
  Proof.
    intros Tm B [p [F [_ St]]].
    assert (oks : forall p, In p ps -> slot_ok p).
    { intros q Iq. rewrite forallb_forall in Tm. apply slots_ok, Tm, Iq. }
    set (s := content_slot blank ff no_attrs reads min max c ps) in *.
    set (Q := fun (_ : slot val) v => group_typed c (map field_typed ps) v).
    assert (O1 : forall s0 h evs v more h', In s0 [s] -> l_occ (s_lang s0) h evs v more h' -> Q s0 v /\ opened h evs).
    { intros s0 h1 e1 v1 m1 h1' [<-|[]] O. eapply raw_typed; [exact oks|exact Tm|exact O]. }
    destruct (follows_bounds blank [s] Q O1) with (p := first_place [s]) (h := h) (evs := evs) (p' := p) (h' := h') as [_ G].
    { intros s0 [<-|[]]. unfold s. cbn [DocSpec.content_slot s_max]. unfold bounds_ok in B. destruct max; [exact I|].
      apply andb_true_iff in B as [B _]. apply Nat.leb_le, B. }
    { exact F. } { apply bounds_first. } { intros [|[|k]] _; reflexivity. }
    destruct p as [[i0 got] mo]. cbn [fst snd] in G. destruct (G 0 _ eq_refl) as [Fg Wi]. destruct St as [_ [_ St]]. specialize (St 0 _ eq_refl). cbn [nth] in *.
    destruct (settle_ok Q s _ _ (fun v E => empty_typed ps oks Tm c v E) Fg Wi St) as [F' [Lo Hi]]. split; [|exact F'].
    unfold s in Lo, Hi. cbn [DocSpec.content_slot s_min s_max] in Lo, Hi. clear - B Lo Hi. unfold from_occurs, bounds_ok in *.
    destruct max as [|b]; [destruct min as [|[|a]]; exact I|].
    apply andb_true_iff in B as [B1 B2]. apply Nat.leb_le in B1, B2.
    destruct min as [|[|a]], b as [|[|b]]; try lia; cbn [fits_occ Nat.eqb]; try exact I; try (specialize (Hi ltac:(lia)); lia).
    destruct (Nat.eqb a b) eqn:Eab; [|exact I]. apply Nat.eqb_eq in Eab. subst b. cbn [fits_occ]. specialize (Hi ltac:(lia)). lia.
  Qed.
End Typed.

Lemma valid_typed (T A : Type) blank ff (no_attrs : A) attrs_of
    (parse : nat -> dhelper -> bytes -> outcome kind (T * dhelper)) charref (env : nat -> tdef) n : 
  (forall ty, tame_type (T:=T) ff no_attrs (env ty) = true) ->
  forall ty h evs v h', valid blank ff no_attrs attrs_of parse charref env n ty h evs v h' ->
    typed ff no_attrs env (fun ty v => exists n h evs h', valid blank ff no_attrs attrs_of parse charref env n ty h evs v h') n ty v.
Proof.
  intros Tm. induction n as [|n IH]; intros ty h evs v h' Va; [contradiction|]. cbn [typed].
  split; [exists (S n), h, evs, h'; exact Va|]. cbn [valid] in *.
  specialize (Tm ty). destruct (env ty) as [| |attributed min max c ps].
  - destruct Va as [t [-> _]]. eauto.
  - destruct Va as [a [t [-> _]]]. eauto.
  - assert (exists a h1 h2 body, (if nothing_allowed max ps then v = VStruct a [] /\ spaces blank h1 body h2
       else exists vals more, repeated blank (content_slot blank ff no_attrs (valid blank ff no_attrs attrs_of parse charref env n) min max c ps) h1 body vals more h2 /\
              type_value ff attributed min max c a vals v)) as [a [h1 [h2 [body C]]]].
    { destruct Va as [(nm & at0 & hx & ax & hy & bd & nm' & hz & _ & _ & _ & C & _)|(nm & at0 & hx & ax & hy & _ & _ & _ & C)]; eauto 8. }
    destruct (nothing_allowed max ps) eqn:No; [destruct C as [-> _]; eauto|]. destruct C as [vals [more [Rp Tv]]].
    cbn [tame_type] in Tm. do 3 (apply andb_true_iff in Tm as [Tm _]). apply andb_true_iff in Tm as [Tm B].
    assert (B' : bounds_ok min max = true) by (destruct max as [|[|m]]; [exact B|discriminate No|exact B]).
    destruct (content_typed blank ff no_attrs _ _ IH min max c ps _ _ _ _ _ Tm B' Rp) as [Fo Ft].
    unfold type_value in Tv. destruct (direct ff attributed min max c).
    + destruct vals as [|w [|]]; try contradiction; [|destruct w; contradiction].
      inversion Ft as [|? ? Tw _]; subst. destruct w; subst v; exact Tw.
    + exists a, vals. auto.
Qed.

(** ** The round trip *)
Section Parts.
  Context {T A : Type}.
  Variables (blank : bytes -> option bool) (ff : flat_flags) (no_attrs : A)
    (attrs_of : nat -> dhelper -> bytes -> list attr -> outcome kind (A * dhelper))
    (parse : nat -> dhelper -> bytes -> outcome kind (T * dhelper)) (charref : bytes -> option bytes) (env : nat -> tdef).
  Notation was_read ty v := (exists n h evs h', valid blank ff no_attrs attrs_of parse charref env n ty h evs v h').
  Hypothesis tamed : forall ty, tame_type (T:=T) ff no_attrs (env ty) = true.
  Lemma complex_value ty v attributed min max c ps : was_read ty v -> env ty = TComplex attributed min max c ps ->
    (exists a fields, v = VStruct a fields) \/ exists i vals, v = VEnum i vals.
  Proof.
    intros [n [h [evs [h' Va]]]] E. pose proof (valid_typed _ _ _ _ _ _ _ _ _ _ tamed _ _ _ _ _ Va) as Ty.
    destruct n as [|n]; [contradiction|]. cbn [typed] in Ty. rewrite E in Ty. destruct Ty as [_ Ty].
    destruct (nothing_allowed max ps); [destruct Ty as [a ->]; eauto|]. destruct (direct ff attributed min max c).
    - destruct v; cbn [group_typed] in Ty; try contradiction; eauto.
    - destruct Ty as [a [vals [-> _]]]. eauto.
  Qed.
  Lemma valid_text ty v t : was_read ty v -> val_text v = Some t -> text_read parse ty t.
  Proof.
    intros Wr E. assert (CV := fun a b c d e => complex_value ty v a b c d e Wr). destruct Wr as [[|n] [h [evs [h' Va]]]]; [contradiction|]. cbn [valid] in Va. destruct (env ty) as [| |attributed min max c ps] eqn:Ety.
    - destruct Va as [t' [-> Va]]. injection E as ->. eapply text_was_read, Va.
    - destruct Va as [a' [t' [-> Va]]]. injection E as ->. eapply text_was_read, Va.
    - destruct (CV _ _ _ _ _ eq_refl) as [[a [fields ->]]|[i [vals ->]]]; discriminate E.
  Qed.
  Lemma valid_attrs ty v : was_read ty v -> env ty <> TSimple ->
    match val_attrs v with Some a => attrs_read attrs_of ty a | None => True end.
  Proof.
    intros Wr S. assert (CV := fun a b c d e => complex_value ty v a b c d e Wr). destruct Wr as [[|n] [h [evs [h' Va]]]]; [contradiction|]. cbn [valid] in Va. destruct (env ty) as [| |attributed min max c ps] eqn:Ety; [congruence| |].
    - destruct Va as [a' [t' [-> Va]]]. cbn [val_attrs].
      destruct Va as [(n0 & at0 & g0 & g1 & body & n' & s & u & _ & _ & Ea & _)|(n0 & at0 & g0 & g1 & _ & _ & Ea & _)]; do 4 eexists; exact Ea.
    - assert (exists a, attrs_read attrs_of ty a /\ (v = VStruct a [] \/ exists vals, type_value ff attributed min max c a vals v)) as [a [Ra Q]].
      { destruct (nothing_allowed max ps).
        - destruct Va as [(nm & at0 & hx & ax & hy & bd & nm' & hz & _ & _ & Ea & [C _] & _)|(nm & at0 & hx & ax & hy & _ & _ & Ea & [C _])];
            exists ax; (split; [do 4 eexists; exact Ea|left; exact C]).
        - destruct Va as [(nm & at0 & hx & ax & hy & bd & nm' & hz & _ & _ & Ea & (vals & more & _ & Tv) & _)|
                            (nm & at0 & hx & ax & hy & _ & _ & Ea & (vals & more & _ & Tv))]; exists ax; (split; [do 4 eexists; exact Ea|right; exists vals; exact Tv]). }
      destruct Q as [->|[vals Tv]]; [exact Ra|]. unfold type_value in Tv. destruct (direct ff attributed min max c); [|subst v; exact Ra].
      destruct vals as [|u [|]]; try contradiction; [|destruct u; contradiction]. 
      destruct (CV _ _ _ _ _ eq_refl) as [[a2 [fields ->]]|[i [vs ->]]]; [|exact I].
      destruct u; try discriminate Tv. injection Tv as -> ->. exact Ra.
  Qed.
End Parts.

Lemma tame_sound (T A : Type) ff (no_attrs : A) (env : nat -> tdef) :
  (forall ty, tame_type (T:=T) ff no_attrs (env ty) = true) ->
  forall ty attributed min max c ps, env ty = TComplex attributed min max c ps ->
    (max = Bounded 0 -> min = 0) /\ (is_choice c = true -> ps <> []).
Proof.
  intros Tm ty attributed min max c ps E. specialize (Tm ty). rewrite E in Tm. cbn [tame_type] in Tm.
  do 2 (apply andb_true_iff in Tm as [Tm _]). apply andb_true_iff in Tm as [Tm C]. apply andb_true_iff in Tm as [Tm B]. split.
  - intros ->. apply Nat.eqb_eq, B.
  - intros Ec. rewrite Ec in C. intros ->. discriminate C.
Qed.

Lemma round_trip (T A : Type) blank ff (no_attrs : A) attrs_of
    (parse : nat -> dhelper -> bytes -> outcome kind (T * dhelper)) charref (env : nat -> tdef)
    tag opening closing to_bytes sync n ty name h0 evs0 v h0' sh :
  (forall ty, tame_type (T:=T) ff no_attrs (env ty) = true) -> (forall ty, readable_type (env ty)) ->
  tags_back env tag opening closing to_bytes attrs_of parse (ty, name) sync ->
  (forall ty root name v h, env ty <> TSimple ->
     match val_attrs v with Some a => attrs_read attrs_of ty a | None => True end ->
     exists attrs h', opening ty root name v h = (Ok attrs, h')) ->
  (forall ty t h, text_read parse ty t -> exists data h', to_bytes ty t h = (Ok data, h') /\ text_ok data = true) ->
  sync None sh resolver_default ->
  valid blank ff no_attrs attrs_of parse charref env n ty h0 evs0 v h0' ->
  exists evs h', valid blank ff no_attrs attrs_of parse charref env n ty dhelper_default evs v h' /\
    exists F, forall fuel calls, F <= fuel -> length evs < calls ->
      serialize ff env tag opening closing to_bytes fuel calls ty name v sh = SRDone evs sh.
Proof.
  intros Tm Rd Bk Op Tx Sy Va. pose proof (valid_typed _ _ _ _ _ _ _ _ _ _ Tm _ _ _ _ _ Va) as Ty.
  destruct (written_total ff no_attrs env tag opening closing to_bytes _
    (fun ty root name v h K S => Op ty root name v h S (valid_attrs _ _ _ _ _ _ _ Tm _ _ K S))
    (fun ty t v h K E => Tx ty t h (valid_text _ _ _ _ _ _ _ Tm _ _ _ K E)) n ty true name v Ty sh) as [evs [sh' W]].
  destruct (valid_again blank ff no_attrs attrs_of parse charref env tag opening closing to_bytes _ sync Bk Rd n None ty true name _ _ _ _ Va)
    with (sh := sh) (evs := evs) (sh' := sh') (h := dhelper_default) as [-> [h' [Va' _]]]; [split; reflexivity|exact W|exact Sy|].
  exists evs, h'. split; [exact Va'|]. eapply serialize_written; [eapply tame_sound, Tm|exact Ty|exact W].
Qed.
