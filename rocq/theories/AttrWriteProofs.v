(** Proofs about the attributes of generated types: what holds for every document, and
    writing. *)
From Verif Require Import AttrModel AttrSpec AttrProofs TextProofs.
Local Open Scope string_scope.

Section Always.
  Context {V : Type}.
  Variable parse : nat -> resolver -> bytes -> option V.
  Variable charref : bytes -> option bytes.
  Variable utf8_ok : bytes -> bool.

  Lemma read_slot_no_panic r (d : decl V) s x : shaped d s -> read_slot parse charref utf8_ok r d s x <> Panic.
  Proof.
    destruct d as [f|], s as [[v|]|acc]; cbn; intros K; try contradiction; try discriminate.
    - destruct (utf8_ok (snd x)); [|discriminate]. destruct (unescape charref (snd x)); [|discriminate].
      destruct (parse _ _ _); discriminate.
    - destruct (existsb (fun y => String.eqb (fst y) (fst x)) acc); discriminate.
  Qed.
  Lemma read_loop_no_panic ds allow r l : forall seen slots, good_slots ds seen slots ->
    read_loop parse charref utf8_ok ds allow r seen slots l <> Panic.
  Proof.
    induction l as [|x l IH]; intros seen slots G; cbn; [discriminate|].
    destruct (existsb (String.eqb (fst x)) seen); [discriminate|].
    destruct (is_xmlns (fst x)); [apply IH, good_skip, G|].
    unfold read_one. destruct (target ds r (fst x)) as [i|] eqn:T.
    - destruct (target_decl ds r _ _ T) as (d & D). rewrite D.
      destruct (some_slot ds slots i d (proj1 G) D) as (s & E). rewrite E.
      assert (Sh : shaped d s) by (destruct G as (_ & Sh & _); eauto).
      pose proof (read_slot_no_panic r d s x Sh) as NP.
      destruct (read_slot parse charref utf8_ok r d s x) as [s1|e|] eqn:R; [|discriminate|congruence].
      apply IH. eapply good_step; eauto.
    - destruct (allow || globally_allowed r (fst x)); [apply IH, good_skip, G|discriminate].
  Qed.
  Lemma finish_slots_no_panic (ds : list (decl V)) slots : length slots = length ds -> finish_slots ds slots <> Panic.
  Proof.
    revert slots; induction ds as [|d ds IH]; intros [|s slots] L; try discriminate. cbn.
    destruct (finish_slot d s) as [s'|e|] eqn:F; [|discriminate|].
    - cbn in L. injection L as L. specialize (IH slots L). destruct (finish_slots ds slots); [discriminate|discriminate|congruence].
    - exfalso. destruct d as [f|], s as [[v|]|m]; cbn in F; try discriminate.
      destruct (af_default f); [discriminate|]. destruct (af_required f); discriminate.
  Qed.

  Lemma read_no_panic fd sup l r attrs : read_attributes parse charref utf8_ok fd sup l r attrs <> Panic.
  Proof.
    unfold read_attributes. rewrite new_fields_char. set (ds := map _ _). set (al := negb sup && _).
    unfold read_fields.
    assert (H : match read_loop parse charref utf8_ok ds al r [] (map init_slot ds) attrs with
                | Ok slots => finish_slots ds slots | Err e => Err e | Panic => Panic end <> Panic).
    { pose proof (read_loop_no_panic ds al r attrs [] _ (init_good ds)) as NP.
      destruct (read_loop _ _ _ _ _ _ _ _ _) as [slots|e|] eqn:Lo; [|discriminate|congruence].
      apply (loop_char parse charref utf8_ok ds al r attrs [] _ _ (init_good ds)) in Lo.
      apply finish_slots_no_panic, Lo. }
    destruct ds; [destruct al; [discriminate|exact H]|exact H].
  Qed.

  Section Any.
    Variable fd sup : bool.
    Variable l : list (sdecl V).
    Variable r : resolver.
    Variable attrs : list attr.
    Let fields := filter (has_field sup) l.
    Let ds := map (code_of fd) fields.

    Lemma read_result slots : read_attributes parse charref utf8_ok fd sup l r attrs = Ok slots ->
      result parse charref utf8_ok ds (negb sup && existsb is_wild l) r attrs slots \/
      (fields = [] /\ slots = [] /\ sup = false /\ exists w, In (SWildcard w) l).
    Proof.
      unfold read_attributes. rewrite new_fields_char. change (map (code_of fd) (filter (has_field sup) l)) with ds.
      destruct (negb sup && existsb is_wild l) eqn:Al.
      - destruct ds eqn:Eds.
        + cbn. intros [= <-]. right. apply andb_true_iff in Al as [A W]. split; [unfold ds in Eds; destruct fields; [reflexivity|discriminate]|].
          split; [reflexivity|]. split; [apply negb_true_iff, A|]. apply (wild_cases l), W.
        + rewrite <- Eds. intros R. left. apply read_fields_char in R; [exact R|left; congruence].
      - intros R. left. apply read_fields_char in R; [exact R|right; reflexivity].
    Qed.

    Lemma nth_ds' i : nth_error ds i = option_map (code_of fd) (nth_error fields i).
    Proof. unfold ds. apply nth_error_map. Qed.

    Lemma target_local k i f : target ds r k = Some i -> nth_error ds i = Some (DField f) -> key_local k = af_name f.
    Proof.
      unfold target. destruct (chain r ds 0 k) as [j|] eqn:C.
      - intros [= <-]. apply chain_sound in C as (g & E & _ & M). rewrite Nat.sub_0_r in E. intros E'. rewrite E in E'. injection E' as <-.
        unfold matches in M. destruct (af_ns g) as [ns|]; [|apply String.eqb_eq, M].
        unfold resolve_local_name, dh_resolve in M. cbn [negb] in M. pose proof (resolve_local r k false) as L.
        destruct (resolve r k false) as [[|u|p] l0]; cbn in L; subst l0; [apply String.eqb_eq, M| |discriminate].
        destruct (String.eqb u ns); [apply String.eqb_eq, M|discriminate].
      - intros H E. apply any_sound in H as [H _]. rewrite Nat.sub_0_r in H. congruence.
    Qed.

    Lemma sources slots i d s : read_attributes parse charref utf8_ok fd sup l r attrs = Ok slots ->
      nth_error fields i = Some d -> nth_error slots i = Some s ->
      match d, s with
      | SAttribute a, FValue o =>
          (exists x v, In x attrs /\ ~ declares_namespace (fst x) /\ key_local (fst x) = sa_name a /\
             has_text parse charref utf8_ok r a x v /\ o = Some v) \/
          (o = sa_default a /\ (sa_default a = None -> sa_use a <> URequired))
      | SWildcard _, FAny m => forall x, In x m -> In x attrs /\ ~ declares_namespace (fst x)
      | _, _ => False
      end.
    Proof.
      intros R E S. apply read_result in R as [(N & L & H & _)|(Fn & -> & _)]; [|destruct i; discriminate].
      destruct (H i (code_of fd d)) as (s' & S' & F); [rewrite nth_ds', E; reflexivity|].
      rewrite S in S'. injection S' as <-.
      assert (Mine : forall x, In x (mine ds r i attrs) -> In x attrs /\ ~ declares_namespace (fst x) /\ target ds r (fst x) = Some i).
      { intros x I. unfold mine in I. apply filter_In in I as [I M]. split; [exact I|]. unfold is_mine in M.
        apply andb_true_iff in M as [M1 M2]. split; [apply is_xmlns_no, negb_true_iff, M1|].
        destruct (target ds r (fst x)) as [j|]; [|discriminate]. apply Nat.eqb_eq in M2. congruence. }
      destruct d as [a|w]; cbn in F.
      - destruct F as [(M & Rq & ->)|(x & v & M & Fv & ->)].
        + right. split; [reflexivity|]. intros D U. rewrite U in Rq. specialize (Rq D). discriminate.
        + left. destruct (Mine x) as (I & Nx & T); [rewrite M; left; reflexivity|]. exists x, v.
          split; [exact I|]. split; [exact Nx|]. split; [|split; [exact Fv|reflexivity]].
          apply (target_local (fst x) i (field_of fd a) T). rewrite nth_ds', E. reflexivity.
      - subst s. intros x I. destruct (Mine x I) as (I1 & I2 & _). auto.
    Qed.

    Lemma accounted slots x : read_attributes parse charref utf8_ok fd sup l r attrs = Ok slots ->
      In x attrs -> ~ declares_namespace (fst x) ->
      (exists i a v, nth_error fields i = Some (SAttribute a) /\ key_local (fst x) = sa_name a /\
         has_text parse charref utf8_ok r a x v /\ nth_error slots i = Some (FValue (Some v))) \/
      (exists i w m, nth_error fields i = Some (SWildcard w) /\ nth_error slots i = Some (FAny m) /\ In x m) \/
      (sup = false /\ exists w, In (SWildcard w) l) \/
      In (key_local (fst x)) ["schemaLocation"; "noNamespaceSchemaLocation"; "type"; "nil"].
    Proof.
      intros R I Nx. apply read_result in R as [(N & L & H & Al)|(_ & _ & W)]; [|auto].
      destruct (target ds r (fst x)) as [i|] eqn:T.
      - destruct (target_decl ds r _ _ T) as (c & D). destruct (H i c D) as (s & S & F).
        assert (M : In x (mine ds r i attrs)).
        { unfold mine. apply filter_In. split; [exact I|]. unfold is_mine. rewrite (proj2 (is_xmlns_no _) Nx), T, Nat.eqb_refl. reflexivity. }
        pose proof D as D'. rewrite nth_ds' in D'. destruct (nth_error fields i) as [d|] eqn:E; [|discriminate]. injection D' as <-.
        destruct d as [a|w]; cbn in F.
        + left. destruct F as [(M0 & _)|(y & v & My & Fv & ->)]; [rewrite M0 in M; destruct M|].
          rewrite My in M. destruct M as [->|[]]. exists i, a, v. split; [exact E|]. split; [|auto].
          apply (target_local (fst x) i (field_of fd a) T). exact D.
        + right; left. subst s. exists i, w, (mine ds r i attrs). auto.
      - specialize (Al x I (proj2 (is_xmlns_no _) Nx) T). apply orb_true_iff in Al as [Al|Al].
        + right; right; left. apply andb_true_iff in Al as [A W]. split; [apply negb_true_iff, A|]. apply (wild_cases l), W.
        + right; right; right. unfold globally_allowed, dh_resolve in Al. cbn [negb] in Al. pose proof (resolve_local r (fst x) false) as Lc.
          destruct (resolve r (fst x) false) as [[|u|p] l0]; try discriminate. cbn in Lc. subst l0.
          apply andb_true_iff in Al as [_ Al]. apply existsb_eqb in Al. exact Al.
    Qed.
  End Any.
End Always.

Section Write.
  Context {V : Type}.
  Variable render : nat -> V -> option (option bytes).

  Lemma write_slot_no_panic fd (d : sdecl V) s : has_field true d = true -> holds d s -> write_slot render (code_of fd d) s <> Panic.
  Proof.
    destruct d as [a|w], s as [[v|]|m]; cbn; intros U H; try contradiction; try discriminate.
    - destruct (render (sa_type a) v) as [[t|]|]; discriminate.
    - destruct H as [U' D]. unfold is_option. cbn. rewrite U', D. discriminate.
  Qed.

  Lemma write_no_panic fd sup l slots : Forall2 holds (filter (has_field sup) l) slots ->
    write_attributes render fd sup l slots <> Panic.
  Proof.
    unfold write_attributes. rewrite new_fields_char. cbn [fst]. intros H.
    assert (U : forall d, In d (filter (has_field sup) l) -> has_field true d = true).
    { intros d I. apply filter_In in I as [_ I]. destruct d; [exact I|reflexivity]. }
    induction H as [|d s fs ss Hd Ht IH]; cbn; [discriminate|].
    pose proof (write_slot_no_panic fd d s (U d (or_introl eq_refl)) Hd) as NP.
    destruct (write_slot render (code_of fd d) s); [|discriminate|congruence].
    specialize (IH ltac:(intros e I; apply U; right; exact I)).
    destruct (write_fields render _ ss); [discriminate|discriminate|congruence].
  Qed.

  Variable parse : nat -> resolver -> bytes -> option V.
  Variable charref : bytes -> option bytes.
  Variable utf8_ok : bytes -> bool.
  Variable fd sup : bool.
  Variable l : list (sdecl V).
  Variable r : resolver.
  Let fields := filter (has_field sup) l.

  Hypothesis Pl : plain_declarations fd l.

  Notation back := (reads_back parse utf8_ok fd render l r).

  (** What a field becomes. *)
  Definition part (d : sdecl V) (s : slot V) (p : list attr) : Prop :=
    match d, s with
    | SAttribute a, FValue (Some v) =>
        exists t, p = [(written_key fd a, escape t)] /\ names_back fd r a /\ utf8_ok (escape t) = true /\ parse (sa_type a) r t = Some v
    | SAttribute a, FValue None => p = [] /\ sa_use a = UOptional /\ sa_default a = None
    | SWildcard _, FAny m => p = m /\ NoDup (map fst m) /\ forall x, In x m -> undeclared fd l r x
    | _, _ => False
    end.

  Lemma write_part d s p : holds d s -> back d s -> write_slot render (code_of fd d) s = Ok p -> part d s p.
  Proof.
    destruct d as [a|w], s as [[v|]|m]; cbn; intros H B W; try contradiction.
    - destruct B as (Nb & t & R & U & P). rewrite R in W. injection W as <-. exists t.
      split; [|auto]. unfold tag_name, written_key. cbn. unfold form_of. reflexivity.
    - destruct H as [U D]. split; [|auto]. unfold is_option in W. cbn in W. rewrite U, D in W. cbn in W. congruence.
    - injection W as <-. auto.
  Qed.

  (** The written attributes, field by field. *)
  Inductive parts : list (sdecl V) -> list (slot V) -> list attr -> Prop :=
  | parts_nil : parts [] [] []
  | parts_cons d s p fs ss out : part d s p -> parts fs ss out -> parts (d :: fs) (s :: ss) (p ++ out)%list.

  Lemma write_parts fs : forall ss out, Forall2 holds fs ss -> Forall2 back fs ss ->
    write_fields render (map (code_of fd) fs) ss = Ok out -> parts fs ss out.
  Proof.
    induction fs as [|d fs IH]; intros [|s ss] out H B W; inversion H; inversion B; subst.
    - cbn in W. injection W as <-. constructor.
    - cbn in W. destruct (write_slot render (code_of fd d) s) as [p| |] eqn:Wp; try discriminate.
      destruct (write_fields render (map (code_of fd) fs) ss) as [o| |] eqn:Wo; try discriminate. injection W as <-.
      constructor; [eapply write_part; eauto|apply IH; auto].
  Qed.

  Lemma parts_in fs ss out : parts fs ss out -> forall y, In y out ->
    exists i d s p, nth_error fs i = Some d /\ nth_error ss i = Some s /\ part d s p /\ In y p.
  Proof.
    induction 1 as [|d s p fs ss out P Ps IH]; intros y I; [destruct I|].
    apply in_app_or in I as [I|I].
    - exists 0, d, s, p. auto.
    - destruct (IH y I) as (i & d' & s' & p' & A). exists (S i), d', s', p'. exact A.
  Qed.
  Lemma parts_nth fs ss out : parts fs ss out -> forall i d s, nth_error fs i = Some d -> nth_error ss i = Some s ->
    exists p, part d s p /\ incl p out.
  Proof.
    induction 1 as [|d s p fs ss out P Ps IH]; intros [|i] d' s' E F; try discriminate.
    - injection E as <-. injection F as <-. exists p. split; [exact P|]. apply incl_appl, incl_refl.
    - destruct (IH i d' s' E F) as (q & Q & I). exists q. split; [exact Q|]. apply incl_appr, I.
  Qed.

  (** Distinct fields have distinct attributes. *)
  Definition apart (fs : list (sdecl V)) : Prop :=
    (forall i j a b, nth_error fs i = Some (SAttribute a) -> nth_error fs j = Some (SAttribute b) ->
       declared_name fd a = declared_name fd b -> i = j) /\
    (forall i j w u, nth_error fs i = Some (SWildcard w) -> nth_error fs j = Some (SWildcard u) -> i = j) /\
    (forall a, In (SAttribute a) fs -> declares l a).
  Lemma apart_fields : apart fields.
  Proof.
    split; [|split].
    - intros i j a b E F D. destruct (Nat.eq_dec i j) as [Eij|N]; [exact Eij|]. exfalso.
      assert (Ia : In (SAttribute a) fields) by (eapply nth_error_In; eauto).
      assert (Ib : In (SAttribute b) fields) by (eapply nth_error_In; eauto).
      apply field_declares in Ia. apply field_declares in Ib.
      destruct (filter_positions_ne _ _ _ _ _ _ N E F) as (i' & j' & N' & A & B).
      destruct Pl as (P1 & _ & _). exact (P1 i' j' a b N' A B (proj2 Ia) (proj2 Ib) D).
    - intros i j w u E F. destruct (Nat.eq_dec i j) as [Eij|N]; [exact Eij|]. exfalso.
      destruct (filter_positions_ne _ _ _ _ _ _ N E F) as (i' & j' & N' & A & B).
      destruct Pl as (_ & _ & P3). apply N', (P3 i' j' w u A B).
    - intros a I. apply field_declares in I. exact I.
  Qed.
  Lemma apart_tail d fs : apart (d :: fs) -> apart fs.
  Proof.
    intros (A & B & C). split; [|split].
    - intros i j a b E F D. specialize (A (S i) (S j) a b E F D). lia.
    - intros i j w u E F. specialize (B (S i) (S j) w u E F). lia.
    - intros a I. apply C. right; exact I.
  Qed.

  Lemma part_carries d s p y : part d s p -> In y p ->
    match d with SAttribute a => carries fd r a y | SWildcard _ => undeclared fd l r y end.
  Proof.
    destruct d as [a|w], s as [[v|]|m]; cbn; try contradiction.
    - intros (t & -> & [N1 N2] & _) [<-|[]]. split; auto.
    - intros (-> & _) [].
    - intros (-> & _ & H) I. auto.
  Qed.

  Lemma parts_keys fs ss out : apart fs -> parts fs ss out -> NoDup (map fst out).
  Proof.
    intros A P. induction P as [|d s p fs ss out P Ps IH]; [constructor|].
    rewrite map_app. specialize (IH (apart_tail _ _ A)).
    assert (Np : NoDup (map fst p)).
    { destruct d as [a|w], s as [[v|]|m]; cbn in P; try contradiction.
      - destruct P as (t & -> & _). cbn. constructor; [intros []|constructor].
      - destruct P as [-> _]. constructor.
      - destruct P as (-> & N & _). exact N. }
    assert (Dj : forall x y, In x p -> In y out -> fst x <> fst y).
    { intros x y I J E. pose proof (part_carries _ _ _ x P I) as Cx.
      destruct (parts_in _ _ _ Ps y J) as (i & d' & s' & p' & E1 & E2 & P' & J').
      pose proof (part_carries _ _ _ y P' J') as Cy. destruct A as (A1 & A2 & A3).
      destruct d as [a|w], d' as [b|u].
      - destruct Cx as [_ Cx], Cy as [_ Cy]. rewrite E in Cx. pose proof (named_fun _ _ _ _ Cx Cy) as D.
        specialize (A1 0 (S i) a b eq_refl E1 D). lia.
      - destruct Cy as [_ Cy]. apply (Cy a); [apply A3; left; reflexivity|]. unfold carries in *. rewrite <- E. exact Cx.
      - destruct Cx as [_ Cx]. apply (Cx b); [apply A3; right; eapply nth_error_In; eauto|]. unfold carries in *. rewrite E. exact Cy.
      - specialize (A2 0 (S i) w u eq_refl E1). lia. }
    clear - Np IH Dj. induction p as [|x p IHp]; [exact IH|]. cbn in Np |- *. inversion Np as [|? ? N1 N2]; subst.
    constructor.
    - intros I. apply in_app_or in I as [I|I]; [contradiction|]. apply in_map_iff in I as (y & E & J).
      apply (Dj x y); [left; reflexivity|exact J|congruence].
    - apply IHp; [exact N2|]. intros a b I J. apply Dj; [right; exact I|exact J].
  Qed.

  Lemma selects_app {A} (P : A -> Prop) l1 m1 l2 m2 : selects P l1 m1 -> selects P l2 m2 -> selects P (l1 ++ l2) (m1 ++ m2).
  Proof. induction 1; intros H2; cbn; [exact H2|apply selects_keep|apply selects_drop]; auto. Qed.
  Lemma selects_all {A} (P : A -> Prop) m : (forall x, In x m -> P x) -> selects P m m.
  Proof. induction m as [|x m IH]; intros H; constructor; [apply H; left; reflexivity|apply IH; intros y I; apply H; right; exact I]. Qed.
  Lemma selects_none {A} (P : A -> Prop) m : (forall x, In x m -> ~ P x) -> selects P m [].
  Proof. induction m as [|x m IH]; intros H; constructor; [apply H; left; reflexivity|apply IH; intros y I; apply H; right; exact I]. Qed.

  Lemma carries_declared a x : declares l a -> carries fd r a x -> ~ undeclared fd l r x.
  Proof. intros D C [_ U]. exact (U a D C). Qed.

  Lemma parts_no_any fs ss out : apart fs -> parts fs ss out -> (forall w, ~ In (SWildcard w) fs) -> selects (undeclared fd l r) out [].
  Proof.
    intros A P N. apply selects_none. intros x I. destruct (parts_in _ _ _ P x I) as (i & d & s & p & E & _ & Pp & J).
    pose proof (part_carries _ _ _ x Pp J) as C. destruct d as [a|w].
    - apply (carries_declared a x); [|exact C]. destruct A as (_ & _ & A3). apply A3. eapply nth_error_In; eauto.
    - exfalso. apply (N w). eapply nth_error_In; eauto.
  Qed.
  Lemma parts_any fs ss out : apart fs -> parts fs ss out -> forall i w m, nth_error fs i = Some (SWildcard w) ->
    nth_error ss i = Some (FAny m) -> selects (undeclared fd l r) out m.
  Proof.
    intros A P. induction P as [|d s p fs ss out P Ps IH]; intros i w m E F; [destruct i; discriminate|].
    pose proof (apart_tail _ _ A) as A'. destruct i as [|i].
    - injection E as ->. injection F as ->. cbn in P. destruct P as (-> & _ & U).
      rewrite <- (app_nil_r m) at 2. apply selects_app; [apply selects_all, U|].
      apply (parts_no_any fs ss out A' Ps). intros u J. apply In_nth_error in J as (j & J).
      destruct A as (_ & A2 & _). specialize (A2 0 (S j) w u eq_refl J). lia.
    - cbn in E, F. change m with ([] ++ m)%list. apply selects_app; [|eapply IH; eauto].
      destruct d as [a|u].
      + apply selects_none. intros x I. pose proof (part_carries _ _ _ x P I) as C.
        apply (carries_declared a x); [|exact C]. destruct A as (_ & _ & A3). apply A3. left; reflexivity.
      + destruct A as (_ & A2 & _). specialize (A2 0 (S i) u w eq_refl E). lia.
  Qed.

  Lemma written_valid xm slots out :
    Forall2 holds fields slots -> Forall2 back fields slots -> write_attributes render fd sup l slots = Ok out ->
    (forall x, In x xm -> declares_namespace (fst x)) -> NoDup (map fst xm) ->
    clear_document fd l r (xm ++ out) ->
    valid parse charref utf8_ok fd sup l r (xm ++ out) slots.
  Proof.
    intros H B W Xm Nm Cd. unfold write_attributes in W. rewrite new_fields_char in W. cbn [fst] in W. fold fields in W.
    pose proof (write_parts _ _ _ H B W) as P. clear W. pose proof apart_fields as A.
    assert (Out : forall y (a : sattr V), In y (xm ++ out) -> carries fd r a y -> In y out).
    { intros y a I [C _]. apply in_app_or in I as [I|I]; [exfalso; apply C, Xm, I|exact I]. }
    assert (Out' : forall y, In y (xm ++ out) -> undeclared fd l r y -> In y out).
    { intros y I [C _]. apply in_app_or in I as [I|I]; [exfalso; apply C, Xm, I|exact I]. }
    assert (Who : forall y (a : sattr V) i, In y out -> carries fd r a y -> nth_error fields i = Some (SAttribute a) ->
              exists s p, nth_error slots i = Some s /\ part (SAttribute a) s p /\ In y p).
    { intros y a i I C E. destruct (parts_in _ _ _ P y I) as (j & d & s & p & E1 & E2 & Pp & J).
      pose proof (part_carries _ _ _ y Pp J) as C'. destruct A as (A1 & A2 & A3).
      assert (Da : declares l a) by (apply A3; eapply nth_error_In; eauto).
      destruct d as [b|w].
      - pose proof (named_fun _ _ _ _ (proj2 C) (proj2 C')) as D. specialize (A1 i j a b E E1 D). subst j.
        rewrite E in E1. injection E1 as <-. exists s, p. auto.
      - exfalso. exact (carries_declared a y Da C C'). }
    split; [|split].
    - rewrite map_app. pose proof (parts_keys _ _ _ A P) as No.
      assert (Dj : forall x y, In x xm -> In y out -> fst x <> fst y).
      { intros x y I J E. destruct (parts_in _ _ _ P y J) as (i & d & s & p & _ & _ & Pp & J').
        pose proof (part_carries _ _ _ y Pp J') as C. specialize (Xm x I). rewrite E in Xm.
        destruct d; [exact (proj1 C Xm)|exact (proj1 C Xm)]. }
      clear - Nm No Dj. induction xm as [|x xs IH]; [exact No|]. cbn in Nm |- *. inversion Nm as [|? ? N1 N2]; subst. constructor.
      + intros I. apply in_app_or in I as [I|I]; [contradiction|]. apply in_map_iff in I as (y & E & J).
        apply (Dj x y); [left; reflexivity|exact J|congruence].
      + apply IH; [exact N2|]. intros a b I J. apply Dj; [right; exact I|exact J].
    - fold fields.
      assert (G : forall i d s, nth_error fields i = Some d -> nth_error slots i = Some s ->
                field_value parse charref utf8_ok fd l r (xm ++ out) d s).
      { intros i d s E F. destruct (parts_nth _ _ _ P i d s E F) as (p & Pp & Inc).
        destruct d as [a|w], s as [[v|]|m]; cbn in Pp; try contradiction; cbn.
        - assert (Da : declares l a) by (destruct A as (_ & _ & A3); apply A3; eapply nth_error_In; eauto).
          destruct (proj1 (proj2 Pl) a Da) as [Fx _].
          pose proof Pp as Pp'. destruct Pp as (t & -> & Nb & U & Pv). left.
          exists (written_key fd a, escape t), v. split; [apply in_or_app; right; apply Inc; left; reflexivity|].
          split; [exact Nb|]. split.
          { intros y I C. destruct (Who y a i (Out y a I C) C E) as (s & q & S & Q & J).
            rewrite F in S. injection S as <-. cbn in Q. destruct Q as (t' & -> & _ & U' & Pv').
            destruct J as [<-|[]]. f_equal.
            destruct (parts_nth _ _ _ P i _ _ E F) as (q0 & Q0 & _).
            assert (O1 : In (written_key fd a, escape t') out) by (apply (Out _ a I C)).
            assert (O2 : In (written_key fd a, escape t) out) by (apply Inc; left; reflexivity).
            pose proof (parts_keys _ _ _ A P) as Nk.
            clear - O1 O2 Nk. revert O1 O2 Nk. generalize (written_key fd a) (escape t) (escape t').
            intros k e e'. induction out as [|[k0 e0] o IH]; [intros []|]. cbn. intros [X|X] [Y|Y] Nk; inversion Nk as [|? ? N1 N2]; subst.
            - congruence.
            - exfalso. injection X as -> ->. apply N1. apply (in_map fst) in Y. exact Y.
            - exfalso. injection Y as -> ->. apply N1. apply (in_map fst) in X. exact X.
            - apply IH; auto. }
          split; [|split; [rewrite Fx; discriminate|reflexivity]].
          split; [exact U|]. exists t. split; [apply unescape_escape|exact Pv].
        - destruct Pp as (-> & U & D). right. split.
          { intros y I C. destruct (Who y a i (Out y a I C) C E) as (s & q & S & Q & J).
            rewrite F in S. injection S as <-. cbn in Q. destruct Q as [-> _]. destruct J. }
          split; [congruence|]. assert (Da : declares l a) by (destruct A as (_ & _ & A3); apply A3; eapply nth_error_In; eauto).
          destruct (proj1 (proj2 Pl) a Da) as [-> _]. congruence.
        - change m with ([] ++ m)%list. apply selects_app.
          + apply selects_none. intros x I [Nx _]. apply Nx, Xm, I.
          + eapply parts_any; eauto. }
      clear - G H. revert G. induction H as [|d s fs ss _ _ IH]; intros G; constructor.
      + apply (G 0); reflexivity.
      + apply IH. intros i. exact (G (S i)).
    - intros x I U. right. pose proof (Out' x I U) as J. destruct (parts_in _ _ _ P x J) as (i & d & s & p & E & _ & Pp & K).
      pose proof (part_carries _ _ _ x Pp K) as C. destruct d as [a|w].
      + exfalso. apply (carries_declared a x); [|exact C|exact U]. destruct A as (_ & _ & A3). apply A3. eapply nth_error_In; eauto.
      + apply nth_error_In in E. unfold fields in E. apply filter_In in E as [E _].
        pose proof (wild_any fd l Pl w E) as ->. destruct (Cd x I (proj1 U)) as [(n & Nn) _].
        exists WAny, n. split; [exact E|]. split; [exact Nn|exact Logic.I].
  Qed.
End Write.
