(** Proofs about the correction of the types of the alternatives. *)
From Verif Require Import Base.
From Verif Require Import SubstModel SubstSpec SubstProofs.

(** Equal up to the alternatives. *)
Definition sk (v : variant) : variant := match v with VDyn t a _ => VDyn t a [] | _ => v end.
Definition same (ts ts' : types) : Prop := forall i, option_map sk (ts i) = option_map sk (ts' i).
Lemma same_ref ts ts' i x n : same ts ts' -> ts i = Some (VRef x n) -> ts' i = Some (VRef x n).
Proof. intros S E. specialize (S i). rewrite E in S. destruct (ts' i) as [[]|]; cbn in S; try discriminate. injection S as <- <-. reflexivity. Qed.
Lemma same_complex ts ts' i b : same ts ts' -> ts i = Some (VComplex b) -> ts' i = Some (VComplex b).
Proof. intros S E. specialize (S i). rewrite E in S. destruct (ts' i) as [[]|]; cbn in S; try discriminate. injection S as <-. reflexivity. Qed.
Lemma same_dyn ts ts' i t a ds : same ts ts' -> ts i = Some (VDyn t a ds) -> exists ds', ts' i = Some (VDyn t a ds').
Proof. intros S E. specialize (S i). rewrite E in S. destruct (ts' i) as [[]|]; cbn in S; try discriminate. injection S as <- <-. eauto. Qed.
Lemma same_sym ts ts' : same ts ts' -> same ts' ts.
Proof. intros S i. symmetry. apply S. Qed.
Lemma same_leads ts ts' i k n : same ts ts' -> leads ts i k n -> leads ts' i k n.
Proof. intros S L. induction L; [constructor; assumption|]. eapply leads_ref; [|eassumption]. eapply same_ref; eauto. Qed.

(** No reference leads to an element; types are not references. *)
Record clean (ts : types) : Prop := {
  cl_ref : forall i x n, ts i = Some (VRef x n) -> fst x <> KElement;
  cl_dyn : forall i x a ds, ts i = Some (VDyn (Some x) a ds) -> fst x <> KElement;
  cl_type : forall i x n, ts i = Some (VRef x n) -> fst i <> KType /\ fst i <> KElementType }.
Definition good (ts : types) (i T : ident) (n : bool) : Prop :=
  leads ts i T n \/ fst i = KElement /\ exists x a ds, ts i = Some (VDyn (Some x) a ds) /\ leads ts x T n.

(** While a type is corrected it is a placeholder. *)
Lemma clean_hole ts i : clean ts -> clean (set i VOther ts).
Proof.
  intros [A B C]. constructor; intros j x; intros.
  - destruct (ident_dec j i) as [->|N]; [rewrite set_same in H; discriminate|]. rewrite set_other in H by exact N. eauto.
  - destruct (ident_dec j i) as [->|N]; [rewrite set_same in H; discriminate|]. rewrite set_other in H by exact N. eauto.
  - destruct (ident_dec j i) as [->|N]; [rewrite set_same in H; discriminate|]. rewrite set_other in H by exact N. eauto.
Qed.
Lemma leads_hole ts i t a ds j k n : ts i = Some (VDyn t a ds) -> leads ts j k n <-> leads (set i VOther ts) j k n.
Proof.
  intros E. split; intros L; induction L as [j H|j j' m k m' H L IH]; try (constructor; assumption); (eapply leads_ref; [|exact IH]).
  - rewrite set_other; [exact H|]. intros ->. congruence.
  - destruct (ident_dec j i) as [->|N]; [rewrite set_same in H; discriminate|]. rewrite set_other in H by exact N. exact H.
Qed.

Lemma resolved ts : clean ts -> forall fuel vis i j v, get_resolved fuel vis ts i = Some (j, v) ->
  ts j = Some v /\ (j = i \/ fst j <> KElement) /\ (forall T n, leads ts i T n -> leads ts j T n).
Proof.
  intros C. induction fuel as [|fuel IH]; intros vis i j v E; [discriminate|]. cbn in E. destruct in_dec as [|NV]; [discriminate|].
  destruct (ts i) as [w|] eqn:W; [|discriminate].
  assert (HERE : Some (i, w) = Some (j, v) -> ts j = Some v /\ (j = i \/ fst j <> KElement) /\ (forall T n, leads ts i T n -> leads ts j T n)).
  { intros [= <- <-]. auto. }
  destruct w as [t [|]|t a ds|b|]; try (apply HERE; exact E).
  destruct (get_resolved fuel (i :: vis) ts t) as [[j' v']|] eqn:G; [|apply HERE; exact E]. injection E as -> ->.
  destruct (IH _ _ _ _ G) as (A & B & D). split; [exact A|]. split.
  - right. destruct B as [->|B]; [|exact B]. exact (cl_ref _ C _ _ _ W).
  - intros T n L. apply D. inversion L as [? H|? j0 n0 ? n' H L']; subst.
    + destruct (cl_type _ C _ _ _ W). tauto.
    + rewrite W in H. injection H as <- <-. exact L'.
Qed.

(** An alternative for an element. *)
Lemma fix_element ts fuel key d : clean ts -> fst key = KElement ->
  exists d', fix_one (S (S fuel)) ts key d = Some d' /\ d_rel d' = d_rel d /\ forall T n, good ts (d_type d) T n -> leads ts (d_type d') T n.
Proof.
  intros C K.
  assert (ONE : forall fuel d, fst (d_type d) <> KElement -> exists d', fix_one (S fuel) ts key d = Some d' /\ d_rel d' = d_rel d /\ forall T n, leads ts (d_type d) T n -> leads ts (d_type d') T n).
  { intros g d0 N. cbn [fix_one]. destruct (get_resolved (S g) [] ts (d_type d0)) as [[j v]|] eqn:G; [|eauto].
    destruct (resolved ts C _ _ _ _ _ G) as (A & B & D). destruct ikind_dec as [E|E].
    - exfalso. rewrite K in E. destruct B as [->|B]; congruence.
    - eexists. split; [reflexivity|]. cbn. auto. }
  destruct (ikind_dec (fst (d_type d)) KElement) as [E|E].
  - cbn [fix_one]. destruct (get_resolved (S (S fuel)) [] ts (d_type d)) as [[j v]|] eqn:G.
    + destruct (resolved ts C _ _ _ _ _ G) as (A & B & D). destruct ikind_dec as [EQ|NQ].
      * rewrite K in EQ. destruct B as [->|B]; [|congruence].
        assert (RR : forall w, (match w with VDyn (Some _) _ _ => False | _ => True end) -> ts (d_type d) = Some w -> forall T n, good ts (d_type d) T n -> leads ts (d_type d) T n).
        { intros w Hw W T n [L|(_ & x & a & ds & X & L)]; [exact L|]. rewrite W in X. injection X as ->. destruct Hw. }
        destruct v as [t n|[x|] a ds|b|]; try (exists d; split; [reflexivity|split; [reflexivity|eapply RR; [|exact A]; exact Logic.I]]).
        destruct (ONE fuel (Derived x (d_rel d))) as (d' & X & Y & Z); [exact (cl_dyn _ C _ _ _ _ A)|].
        exists d'. split; [exact X|]. split; [exact Y|]. intros T n [L|(_ & x' & a' & ds' & X' & L)].
        -- inversion L as [? H|? j0 n0 ? n' H L']; subst; [destruct H; congruence|]. congruence.
        -- rewrite A in X'. injection X' as <- <- <-. apply Z. exact L.
      * eexists. split; [reflexivity|]. split; [reflexivity|]. cbn. intros T n [L|(_ & x & a & ds & X & L)]; [auto|]. exfalso.
        cbn in G. rewrite X in G. injection G as <- <-. rewrite K in NQ. congruence.
    + exists d. split; [reflexivity|]. split; [reflexivity|]. intros T n [L|(_ & x & a & ds & X & L)]; [exact L|]. cbn in G. rewrite X in G. discriminate.
  - destruct (ONE (S fuel) d E) as (d' & X & Y & Z). exists d'. split; [exact X|]. split; [exact Y|]. intros T n [L|(EK & _)]; [auto|contradiction].
Qed.
(** An alternative for a complex type. *)
Lemma fix_complex ts fuel key d b : ts (d_type d) = Some (VComplex b) -> fix_one (S fuel) ts key d = Some d.
Proof.
  intros E. cbn [fix_one get_resolved]. destruct in_dec as [[]|]. rewrite E. destruct ikind_dec; [reflexivity|]. destruct d; reflexivity.
Qed.

Definition entry_ok (ts : types) (i : ident) (p : ident * derived) : Prop :=
  fst (fst p) = KElement /\ d_type (snd p) <> i \/ exists b, ts (d_type (snd p)) = Some (VComplex b).
Definition fixed (ts : types) (p q : ident * derived) : Prop :=
  fst q = fst p /\ d_rel (snd q) = d_rel (snd p) /\
  (fst (fst p) = KElement -> forall T n, good ts (d_type (snd p)) T n -> leads ts (d_type (snd q)) T n) /\
  (forall b, ts (d_type (snd p)) = Some (VComplex b) -> q = p).
Lemma fix_list ts cur i t a ds0 fuel : clean ts -> same ts cur -> cur i = Some (VDyn t a ds0) ->
  forall ds, (forall p, In p ds -> entry_ok ts i p) ->
  exists ds', fix_all (S (S fuel)) (set i VOther cur) ds = Some ds' /\ Forall2 (fixed ts) ds ds'.
Proof.
  intros C SM CI. assert (CC : clean cur).
  { destruct C as [A B D]. constructor; intros j x; intros.
    - apply (same_ref _ _ _ _ _ (same_sym _ _ SM)) in H. eauto.
    - destruct (same_dyn _ _ _ _ _ _ (same_sym _ _ SM) H) as (ds' & H'). eauto.
    - apply (same_ref _ _ _ _ _ (same_sym _ _ SM)) in H. eauto. }
  set (hole := set i VOther cur).
  assert (BACK : forall j T n, leads hole j T n -> leads ts j T n).
  { intros j T n L. apply (same_leads cur ts _ _ _ (same_sym _ _ SM)). apply (leads_hole cur i t a ds0 j T n CI). exact L. }
  assert (FORTH : forall j T n, leads ts j T n -> leads hole j T n).
  { intros j T n L. apply (leads_hole cur i t a ds0 j T n CI). apply (same_leads ts cur _ _ _ SM). exact L. }
  assert (COMP : forall j b, ts j = Some (VComplex b) -> hole j = Some (VComplex b)).
  { intros j b E. apply (same_complex _ _ _ _ SM) in E. unfold hole. rewrite set_other; [exact E|]. intros ->. congruence. }
  assert (GOOD : forall j T n, j <> i -> good ts j T n -> good hole j T n).
  { intros j T n N [L|(K & x & a' & ds' & X & L)]; [left; auto|]. right. split; [exact K|]. destruct (same_dyn _ _ _ _ _ _ SM X) as (ds'' & X').
    exists x, a', ds''. split; [|auto]. unfold hole. rewrite set_other by exact N. exact X'. }
  induction ds as [|[k d] ds IH]; intros OK.
  - exists []. split; [reflexivity|constructor].
  - destruct IH as (ds' & E & F2); [intros p P; apply OK; right; exact P|].
    assert (HD : exists d', fix_one (S (S fuel)) hole k d = Some d' /\ fixed ts (k, d) (k, d')).
    { assert (CX : forall b, ts (d_type d) = Some (VComplex b) -> fix_one (S (S fuel)) hole k d = Some d) by (intros b X; eapply fix_complex; eauto).
      destruct (OK (k, d) (or_introl eq_refl)) as [[K N]|[b B]].
      - cbn in K, N. destruct (fix_element hole fuel k d (clean_hole _ i CC) K) as (d' & X & Y & Z). exists d'. split; [exact X|].
        split; [reflexivity|]. split; [exact Y|]. split.
        + intros _ T n G. apply BACK, Z, GOOD; assumption.
        + intros b B. cbn in B. rewrite (CX b B) in X. injection X as <-. reflexivity.
      - cbn in B. exists d. split; [eauto|]. split; [reflexivity|]. split; [reflexivity|]. split; [|auto].
        intros K T n G. cbn in *. destruct G as [L|(_ & x & a' & ds'' & X & _)]; [exact L|congruence]. }
    destruct HD as (d' & X & Y). exists ((k, d') :: ds'). split; [|constructor; assumption].
    cbn [fix_all]. fold hole. rewrite X. rewrite E. reflexivity.
Qed.

Lemma fix_loop ts fuel : clean ts -> (forall i t a ds, ts i = Some (VDyn t a ds) -> forall p, In p ds -> entry_ok ts i p) ->
  forall keys cur, NoDup keys -> (forall i, In i keys -> cur i = ts i) -> same ts cur ->
  exists ts', fix_derived_types (S (S fuel)) keys cur = Some ts' /\ same ts ts' /\ (forall i, ~ In i keys -> ts' i = cur i) /\
    (forall i t a ds, In i keys -> ts i = Some (VDyn t a ds) -> exists ds', ts' i = Some (VDyn t a ds') /\ Forall2 (fixed ts) ds ds').
Proof.
  intros C OK. induction keys as [|i keys IH]; intros cur ND EQ SM.
  - exists cur. split; [reflexivity|]. split; [exact SM|]. split; [auto|]. intros ? ? ? ? [].
  - inversion ND as [|? ? NI ND']; subst. cbn [fix_derived_types]. pose proof (EQ i (or_introl eq_refl)) as EI.
    assert (SKIP : (forall t a ds, ts i <> Some (VDyn t a ds)) -> exists ts', fix_derived_types (S (S fuel)) keys cur = Some ts' /\ same ts ts' /\ (forall j, ~ In j (i :: keys) -> ts' j = cur j) /\
      (forall j t a ds, In j (i :: keys) -> ts j = Some (VDyn t a ds) -> exists ds', ts' j = Some (VDyn t a ds') /\ Forall2 (fixed ts) ds ds')).
    { intros N. destruct (IH cur ND') as (ts' & E & S' & U & D); [intros j J; apply EQ; right; exact J|exact SM|].
      exists ts'. split; [exact E|]. split; [exact S'|]. split; [intros j J; apply U; intros K; apply J; right; exact K|].
      intros j t a ds [<-|J] W; [destruct (N _ _ _ W)|eauto]. }
    rewrite EI. destruct (ts i) as [[t n|t a ds|b|]|] eqn:W; try (apply SKIP; intros; discriminate). clear SKIP.
    destruct (fix_list ts cur i t a ds fuel C SM EI ds (OK i t a ds W)) as (ds' & E & F2). rewrite E.
    destruct (IH (set i (VDyn t a ds') cur) ND') as (ts' & E' & S' & U & D).
    + intros j J. rewrite set_other; [apply EQ; right; exact J|]. intros ->. contradiction.
    + intros j. destruct (ident_dec j i) as [->|N]; [rewrite set_same, W; reflexivity|rewrite set_other by exact N; apply SM].
    + exists ts'. split; [exact E'|]. split; [exact S'|]. split.
      * intros j J. rewrite U by (intros K; apply J; right; exact K). apply set_other. intros ->. apply J. left. reflexivity.
      * intros j t' a' ds0 [<-|J] WJ; [|eauto]. rewrite W in WJ. injection WJ as <- <- <-. exists ds'. split; [|exact F2]. rewrite U by exact NI. apply set_same.
Qed.
