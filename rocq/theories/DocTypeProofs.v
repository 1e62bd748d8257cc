(** Proofs about the types of whole schemas, and documents. *)
From Verif Require Import Utf8 DocModel GenSpec TextSpec DocSpec GenProofs GenChoiceProofs GenContentProofs
  GenAllProofs GenTextProofs DocProofs.
Local Open Scope string_scope.
Local Open Scope list_scope.

(** ** White space around content *)
Section Around.
  Variable blank : bytes -> option bool.
  Context {V : Type}.

  Lemma follows_spaces (ss : list (slot V)) p h sp h1 evs p' h' : spaces blank h sp h1 ->
    follows blank ss p h1 evs p' h' -> follows blank ss p h (sp ++ evs) p' h'.
  Proof. induction 1; intros F; [exact F|]. cbn. eapply follows_space; eauto. Qed.

  Lemma follows_then (ss : list (slot V)) p h evs p' h1 : follows blank ss p h evs p' h1 ->
    forall sp h', spaces blank h1 sp h' -> follows blank ss p h (evs ++ sp) p' h'.
  Proof.
    induction 1 as [p h|p h e h1 evs p' h2 IG E F IH|i got more h evs j s v more' h1 rest p' h2 N O ON F IH]; intros sp h' SP.
    - cbn. rewrite <- (app_nil_r sp). eapply follows_spaces; [exact SP|apply follows_stop].
    - cbn. eapply follows_space; eauto.
    - rewrite <- app_assoc. eapply follows_item; eauto.
  Qed.

  Lemma scattered_spaces (ss : list (slot V)) p h sp h1 evs p' h' : spaces blank h sp h1 ->
    scattered blank ss p h1 evs p' h' -> scattered blank ss p h (sp ++ evs) p' h'.
  Proof. induction 1; intros F; [exact F|]. cbn. eapply scattered_space; eauto. Qed.

  Lemma scattered_then (ss : list (slot V)) p h evs p' h1 : scattered blank ss p h evs p' h1 ->
    forall sp h', spaces blank h1 sp h' -> scattered blank ss p h (evs ++ sp) p' h'.
  Proof.
    induction 1 as [p h|p h e h1 evs p' h2 IG E F IH|i got more h evs j s v more' h1 rest p' h2 N O RM ON F IH]; intros sp h' SP.
    - cbn. rewrite <- (app_nil_r sp). eapply scattered_spaces; [exact SP|apply scattered_stop].
    - cbn. eapply scattered_space; eauto.
    - rewrite <- app_assoc. eapply scattered_item; eauto.
  Qed.

  Lemma ignorables_spaces (s : slot V) got more h evs got' more' h' : run1 blank s got more h evs got' more' h' ->
    ~ room s (length got) -> spaces blank h evs h'.
  Proof.
    induction 1 as [got more h|got more h e h1 evs got' more' h2 IG E1 R IH|]; intros N; [apply spaces_nil| |contradiction].
    eapply spaces_cons; eauto.
  Qed.

  Lemma run1_once (s : slot V) got more h evs got' more' h' : run1 blank s got more h evs got' more' h' ->
    s_max s = Bounded 1 -> got = [] ->
    (got' = [] /\ spaces blank h evs h') \/
    (exists sp occ sp2 v m h1 h2, evs = sp ++ occ ++ sp2 /\ spaces blank h sp h1 /\
      l_occ (s_lang s) h1 occ v m h2 /\ spaces blank h2 sp2 h' /\ got' = [v] /\ more' = m).
  Proof.
    intros R M. induction R as [got more h|got more h e h1 evs got' more' h2 IG E1 R IH|got more h e evs h0 v more1 h1 rest got' more' h2 OC E0 NF RM R IH]; intros G.
    - left. split; [exact G|apply spaces_nil].
    - destruct (IH G) as [[-> SP]|(sp & occ & sp2 & v & m & h3 & h4 & -> & SP & O & SP2 & G' & M')].
      + left. split; [reflexivity|]. eapply spaces_cons; eassumption.
      + right. exists (e :: sp), occ, sp2, v, m, h3, h4. split; [reflexivity|]. split; [eapply spaces_cons; eassumption|]. auto.
    - right. subst got. assert (N : ~ room s (length ([] ++ [v]))) by (unfold room; rewrite M; cbn; lia).
      exists [], (e :: evs), rest, v, more1, h, h1. split; [reflexivity|]. split; [apply spaces_nil|]. split; [exact OC|].
      split; [exact (ignorables_spaces _ _ _ _ _ _ _ _ R N)|].
      destruct (run1_full _ _ _ _ _ _ _ _ _ R N) as (_ & -> & ->). auto.
  Qed.

  Lemma spaces_no_tag h sp h' : spaces blank h sp h' -> Forall (fun e => is_tag e = false) sp.
  Proof. induction 1 as [|h e h1 evs h2 IG E SP IH]; constructor; [exact (proj1 (ignorable_kind _ _ IG))|exact IH]. Qed.

  Lemma spaces_det h sp h1 : spaces blank h sp h1 -> forall h2, spaces blank h sp h2 -> h1 = h2.
  Proof.
    induction 1 as [|h e h1 evs h2 IG E SP IH]; intros h3 S; inversion S; subst; [reflexivity|]. apply IH. congruence.
  Qed.

  Lemma first_tag_unique sp : forall sp' e e' r r', Forall (fun e => is_tag e = false) sp ->
    Forall (fun e => is_tag e = false) sp' -> is_tag e = true -> is_tag e' = true ->
    sp ++ e :: r = sp' ++ e' :: r' -> sp = sp' /\ e = e' /\ r = r'.
  Proof.
    induction sp as [|x sp IH]; intros [|y sp'] e e' r r' F F' TE TE' EQ; cbn in EQ.
    - injection EQ as -> ->. auto.
    - injection EQ as -> _. inversion F'; congruence.
    - injection EQ as <- _. inversion F; congruence.
    - injection EQ as <- EQ. inversion F; inversion F'; subst.
      destruct (IH sp' e e' r r') as (-> & -> & ->); auto.
  Qed.
End Around.

(** ** Types *)
Section Types.
  Context {T A : Type}.
  Notation val := (val T A).
  Notation dst := (dst T A).
  Variable blank : bytes -> option bool.
  Variable ff : flat_flags.
  Variable no_attrs : A.
  Variable attrs_of : nat -> dhelper -> bytes -> list attr -> outcome kind (A * dhelper).
  Variable parse : nat -> dhelper -> bytes -> outcome kind (T * dhelper).
  Variable charref : bytes -> option bytes.
  Variable env : nat -> tdef.
  Hypothesis TT : forall ty, tame_type (T:=T) ff no_attrs (env ty) = true.
  Notation absent := (absent (T:=T) ff no_attrs).
  Notation no_elements := (no_elements (T:=T) no_attrs).
  Notation direct := (direct ff).

  Lemma flattened_direct attributed min max c : flattened ff attributed min max c = direct attributed min max c.
  Proof.
    unfold flattened, DocSpec.direct. destruct (once min max) eqn:ON.
    - apply single_once in ON. rewrite ON. reflexivity.
    - destruct (from_occurs min max) eqn:FO; try reflexivity. apply single_once in FO. congruence.
  Qed.

  (** The content of a type that occurs exactly once. *)
  Section Direct.
    Variable gen : nat -> deser val dst.
    Variable reads : nat -> dhelper -> list event -> val -> dhelper -> Prop.
    Hypothesis RG : forall ty h evs v h', reads ty h evs v h' ->
      reads_element blank (gen ty) h evs v h' /\ begins_with_tag evs.
    Variable ps : list particle.
    Hypothesis TP : forallb (tame (T:=T) ff no_attrs) ps = true.
    Notation slot_of := (slot_of blank ff no_attrs reads).
    Notation ms := (map (member_of ff no_attrs gen) ps).
    Notation ss := (map slot_of ps).
    Variable c : compositor.
    Notation s := (content_slot blank ff no_attrs reads 1 (Bounded 1) c ps).

    Lemma MO : Forall2 (member_ok blank) ms ss.
    Proof. exact (members_ok blank ff no_attrs gen reads RG ps TP). Qed.

    Lemma content_cases h evs vals more h' : ps <> [] -> repeated blank s h evs vals more h' ->
      (exists v, no_elements c (map absent ps) = Some v /\ vals = [v] /\ spaces blank h evs h') \/
      (exists sp occ sp2 v m h1 h2, evs = sp ++ occ ++ sp2 /\ spaces blank h sp h1 /\
        l_occ (s_lang s) h1 occ v m h2 /\ spaces blank h2 sp2 h' /\ vals = [v]).
    Proof.
      intros NE (p & F & _ & ST).
      assert (NM : ms <> []) by (destruct ps; [elim NE; reflexivity|discriminate]).
      assert (CM : exists m : member val dst, member_ok blank m (Slot (s_lang s) 1 (Bounded 1) None)).
      { exists (content_member (T:=T) no_attrs 1 (Bounded 1) c false ms).
        apply (content_member_ok blank no_attrs c false ms ss MO NM); [reflexivity|]. right. exact I. }
      destruct CM as (m & CM).
      assert (F1 : exists got' more', p = (0, [got'], more') /\ run1 blank s [] no_labels h evs got' more' h').
      { assert (LE : forall p h evs p' h', follows blank [s] p h evs p' h' ->
          forall got more, p = (0, [got], more) -> exists got' more', p' = (0, [got'], more') /\ run1 blank s got more h evs got' more' h').
        { clear - CM. intros p h evs p' h' F.
          induction F as [p h|p h e h1 evs p' h2 IG E1 F IH|i got0 more0 h evs j s' v more1 h1 rest p' h2 NJ OC ON F IH]; intros got more E.
          - exists got, more. split; [exact E|apply run1_stop].
          - destruct (IH got more E) as (g & mo & E' & R). exists g, mo. split; [exact E'|]. eapply run1_space; eassumption.
          - injection E as -> -> ->. destruct j as [|j]; [|destruct j; discriminate NJ]. injection NJ as <-.
            destruct CM as (_ & IM & _). destruct (IM true) as [RD _]. destruct (RD _ _ _ _ _ OC) as (BT & FS & _).
            destruct BT as (e & r & -> & TE). destruct (RD _ _ _ _ _ OC) as (_ & _ & art & BG & _).
            assert (E0 : exists h0, dh_event h e = Some h0) by (inversion BG; subst; eauto).
            destruct E0 as (h0 & E0). destruct (ON e r h0 eq_refl E0) as (NF & s0 & N0 & CASES). injection N0 as <-.
            destruct CASES as [[_ RM]|(LT & _)]; [|lia]. cbn [nth] in RM.
            destruct (IH (got ++ [v]) more1 eq_refl) as (g & mo & E' & R). exists g, mo. split; [exact E'|].
            cbn. eapply run1_item; eassumption. }
        exact (LE _ _ _ _ _ F [] no_labels eq_refl). }
      destruct F1 as (got & more' & -> & R).
      destruct (run1_once blank s [] no_labels h evs got more' h' R eq_refl eq_refl) as [[-> SP]|(sp & occ & sp2 & v & m0 & h1 & h2 & E & SP & O & SP2 & -> & _)].
      - left. destruct ST as (_ & _ & ST). destruct (ST 0 s eq_refl) as [[L _]|(v & D & E)]; cbn in *; [lia|].
        exists v. auto.
      - right. exists sp, occ, sp2, v, m0, h1, h2. repeat (split; [assumption|]).
        destruct ST as (_ & _ & ST). destruct (ST 0 s eq_refl) as [[_ E0]|(w & _ & E0)]; cbn in E0; exact E0.
    Qed.
  End Direct.

  Section One.
    Variable gen : nat -> deser val dst.
    Variable reads : nat -> dhelper -> list event -> val -> dhelper -> Prop.
    Hypothesis RG : forall ty h evs v h', reads ty h evs v h' ->
      reads_element blank (gen ty) h evs v h' /\ begins_with_tag evs.
    Variable ps : list particle.
    Hypothesis TP : forallb (tame (T:=T) ff no_attrs) ps = true.
    Notation slot_of := (slot_of blank ff no_attrs reads).
    Notation ms := (map (member_of ff no_attrs gen) ps).
    Notation ss := (map slot_of ps).

    Lemma absent_fields fields : all_some (map absent ps) = Some fields -> settled_at ss (first_place ss) fields.
    Proof.
      intros E. unfold settled_at, first_place.
      assert (LN : length fields = length ps).
      { revert fields E. clear. induction ps as [|p l IH]; intros fields E; cbn in E; [injection E as <-; reflexivity|].
        destruct (absent p); [|discriminate E]. destruct (all_some (map absent l)); [|discriminate E]. injection E as <-.
        cbn. rewrite (IH _ eq_refl). reflexivity. }
      split; [rewrite map_length; reflexivity|]. split; [rewrite map_length; exact LN|]. intros k s EK.
      rewrite nth_error_map in EK. destruct (nth_error ps k) as [p|] eqn:EP; [|discriminate EK]. injection EK as <-.
      assert (N0 : nth k (map (fun _ : slot val => @nil val) ss) [] = []).
      { rewrite map_map. clear. revert k. induction ps as [|q l IH]; intros [|k]; cbn; auto. }
      rewrite N0. apply absent_settled. clear N0. revert fields E k EP LN. clear. induction ps as [|q l IH]; intros fields E k EP LN.
      - destruct k; discriminate EP.
      - cbn in E. destruct (absent q) eqn:AQ; [|discriminate E]. destruct (all_some (map absent l)) eqn:AS; [|discriminate E].
        injection E as <-. destruct k as [|k]; cbn in *; [injection EP as <-; exact AQ|]. apply (IH _ eq_refl); auto.
    Qed.

    Lemma direct_sequence (a : A) h evs vals more h' v : ps <> [] ->
      repeated blank (content_slot blank ff no_attrs reads 1 (Bounded 1) CSequence ps) h evs vals more h' ->
      (match vals with [VStruct _ fields] => v = VStruct a fields | [w] => v = w | _ => False end) ->
      exists fields p, v = VStruct a fields /\ follows blank ss (first_place ss) h evs p h' /\ settled_at ss p fields.
    Proof.
      intros NE R TV. destruct (content_cases gen reads RG ps TP CSequence h evs vals more h' NE R) as
        [(w & N & -> & SP)|(sp & occ & sp2 & w & m & h1 & h2 & -> & SP & O & SP2 & ->)].
      - unfold DocSpec.no_elements in N. cbn [is_choice] in N. destruct (all_some (map absent ps)) as [fields|] eqn:AS; [|discriminate N].
        injection N as <-. exists fields, (first_place ss). split; [exact TV|]. split; [|exact (absent_fields _ AS)].
        rewrite <- (app_nil_r evs). eapply follows_spaces; [exact SP|apply follows_stop].
      - destruct O as [_ (fields & -> & _ & p & F & _ & _ & ST)]. exists fields, p. split; [exact TV|]. split; [|exact ST].
        eapply follows_spaces; [exact SP|]. eapply follows_then; eassumption.
    Qed.

    Lemma direct_all (a : A) h evs vals more h' v : ps <> [] ->
      repeated blank (content_slot blank ff no_attrs reads 1 (Bounded 1) CAll ps) h evs vals more h' ->
      (match vals with [VStruct _ fields] => v = VStruct a fields | [w] => v = w | _ => False end) ->
      exists fields p, v = VStruct a fields /\ scattered blank ss (first_place ss) h evs p h' /\ settled_at ss p fields.
    Proof.
      intros NE R TV. destruct (content_cases gen reads RG ps TP CAll h evs vals more h' NE R) as
        [(w & N & -> & SP)|(sp & occ & sp2 & w & m & h1 & h2 & -> & SP & O & SP2 & ->)].
      - unfold DocSpec.no_elements in N. cbn [is_choice] in N. destruct (all_some (map absent ps)) as [fields|] eqn:AS; [|discriminate N].
        injection N as <-. exists fields, (first_place ss). split; [exact TV|]. split; [|exact (absent_fields _ AS)].
        rewrite <- (app_nil_r evs). eapply scattered_spaces; [exact SP|apply scattered_stop].
      - destruct O as [_ (fields & -> & _ & p & F & _ & _ & ST)]. exists fields, p. split; [exact TV|]. split; [|exact ST].
        eapply scattered_spaces; [exact SP|]. eapply scattered_then; eassumption.
    Qed.

    Lemma direct_choice (a : A) h evs vals more h' v : ps <> [] -> no_elements CChoice (map absent ps) = None ->
      repeated blank (content_slot blank ff no_attrs reads 1 (Bounded 1) CChoice ps) h evs vals more h' ->
      (match vals with [VStruct _ fields] => v = VStruct a fields | [w] => v = w | _ => False end) ->
      exists i vs, v = VEnum i vs /\ choice_content blank false ss h evs (i, vs) h'.
    Proof.
      intros NE NN R TV. destruct (content_cases gen reads RG ps TP CChoice h evs vals more h' NE R) as
        [(w & N & -> & SP)|(sp & occ & sp2 & w & m & h1 & h2 & -> & SP & O & SP2 & ->)]; [congruence|].
      destruct O as [_ (i & vs & -> & BT & ET & s & NS & RP & UN)]. exists i, vs. split; [exact TV|]. left.
      destruct RP as (p & F & EM & ST). exists s, m. split; [exact NS|]. split; [|split].
      - exists p. split; [|auto]. eapply follows_spaces; [exact SP|]. eapply follows_then; eassumption.
      - destruct BT as (e & r & -> & TE). exists e. split; [apply in_or_app; right; left; reflexivity|exact TE].
      - destruct BT as (e & r & -> & TE). intros sp' e' rest h3 h4 k t EQ SP' TE' E' NK DI.
        cbn [app] in EQ. destruct (first_tag_unique sp sp' e e' (r ++ sp2) rest (spaces_no_tag _ _ _ _ SP) (spaces_no_tag _ _ _ _ SP') TE TE' EQ) as (<- & <- & _).
        rewrite <- (spaces_det _ _ _ _ SP _ SP') in E'. exact (UN e r h4 k t eq_refl E' NK DI).
    Qed.
  End One.

  Lemma element_of_impl (f : dhelper -> bytes -> list attr -> outcome kind (A * dhelper)) {W1 W2 : Type} (inj : W2 -> W1)
      (C1 : A -> dhelper -> list event -> W1 -> dhelper -> Prop) (C2 : A -> dhelper -> list event -> W2 -> dhelper -> Prop)
      v h evs h' : (forall a h evs h', C1 a h evs v h' -> exists w, v = inj w /\ C2 a h evs w h') ->
    element_of f C1 h evs v h' -> exists w, v = inj w /\ element_of f C2 h evs w h'.
  Proof.
    intros IMP [(n & attrs & h0 & a & h1 & body & n' & h2 & E & E0 & EA & C & E1)|(n & attrs & h0 & a & h1 & E & E0 & EA & C)].
    - destruct (IMP _ _ _ _ C) as (w & EW & C'). exists w. split; [exact EW|]. left. exists n, attrs, h0, a, h1, body, n', h2. auto.
    - destruct (IMP _ _ _ _ C) as (w & EW & C'). exists w. split; [exact EW|]. right. exists n, attrs, h0, a, h1. auto.
  Qed.

  Lemma element_tag (f : dhelper -> bytes -> list attr -> outcome kind (A * dhelper)) {W : Type}
      (C : A -> dhelper -> list event -> W -> dhelper -> Prop) h evs v h' : element_of f C h evs v h' -> begins_with_tag evs.
  Proof.
    intros [(n & attrs & _ & _ & _ & body & n' & _ & -> & _)|(n & attrs & _ & _ & _ & -> & _)]; eexists; eexists; split; reflexivity.
  Qed.
  Lemma text_tag {B U : Type} (f : dhelper -> bytes -> list attr -> outcome kind (B * dhelper)) (q : dhelper -> bytes -> outcome kind (U * dhelper))
      h evs v h' : text_of charref utf8_valid f q h evs v h' -> begins_with_tag evs.
  Proof.
    intros [(n & attrs & _ & _ & body & n' & _ & _ & -> & _)|(n & attrs & _ & _ & -> & _)]; eexists; eexists; split; reflexivity.
  Qed.

  Notation valid := (valid blank ff no_attrs attrs_of parse charref env).
  Notation type_deser := (type_deser ff no_attrs attrs_of parse charref utf8_valid env).

  Lemma once_is min max : once min max = true -> min = 1 /\ max = Bounded 1.
  Proof. unfold once. destruct min as [|[|]]; destruct max as [|[|[|]]]; try discriminate. auto. Qed.

  Lemma nothing_not_content min max ps : nothing_allowed max ps = true ->
    (match max with Bounded 0 => Nat.eqb min 0 | _ => bounds_ok min max end) = true -> has_content min max ps = false.
  Proof.
    unfold nothing_allowed, has_content. intros N B. destruct max as [|[|m]].
    - destruct ps; [|discriminate N]. destruct (from_occurs _ _); reflexivity.
    - apply Nat.eqb_eq in B as ->. reflexivity.
    - destruct ps; [|discriminate N]. destruct (from_occurs _ _); reflexivity.
  Qed.

  Lemma content_has min max ps : nothing_allowed max ps = false -> has_content min max ps = true.
  Proof.
    unfold nothing_allowed, has_content. intros N.
    assert (F : from_occurs min max <> ONone).
    { unfold from_occurs. destruct max as [|[|[|k]]]; [|discriminate N| |]; destruct min as [|[|i]]; try discriminate; cbn; match goal with |- context [if ?b then _ else _] => destruct b; discriminate end. }
    destruct max as [|[|k]]; [|discriminate N|]; (destruct ps as [|p l]; [discriminate N|]);
      destruct (from_occurs _ _); auto; elim F; reflexivity.
  Qed.

  Lemma valid_reads n : forall m ty h evs v h', n <= m -> valid n ty h evs v h' ->
    reads_element blank (type_deser m ty) h evs v h' /\ begins_with_tag evs.
  Proof.
    induction n as [|n IH]; intros m ty h evs v h' LE V; [elim V|]. destruct m as [|m]; [lia|].
    cbn [DocSpec.valid DocModel.type_deser] in *. specialize (TT ty).
    assert (RG : forall ty h evs v h', valid n ty h evs v h' ->
        reads_element blank (type_deser m ty) h evs v h' /\ begins_with_tag evs) by (intros; apply IH; [lia|assumption]).
    destruct (env ty) as [| |attributed min max c ps].
    - destruct V as (t & -> & V). split; [|exact (text_tag _ _ _ _ _ _ V)].
      apply (reads_lift blank VText DText); [reflexivity|]. exact (plain_element _ _ _ _ _ _ _ V).
    - destruct V as (a & t & -> & V). split; [|exact (text_tag _ _ _ _ _ _ V)].
      apply (reads_lift blank (fun v => VSimple (fst v) (snd v)) DSimple _ (fun s => eq_refl) _ _ _ (a, t)). exact (simple_element _ _ _ _ _ _ _ _ V).
    - split; [|exact (element_tag _ _ _ _ _ _ V)].
      unfold tame_type in TT. repeat (apply andb_prop in TT as [TT ?]).
      rename H into NF, H0 into DE, H1 into NC, H2 into BO, TT into TP.
      unfold DocModel.complex_deser. rewrite flattened_direct.
      destruct (nothing_allowed max ps) eqn:NA.
      + (* no content *)
        assert (HC := nothing_not_content _ _ _ NA BO). rewrite HC.
        assert (EE : reads_element blank (lift_empty (empty_deser (attrs_of ty) false false)) h evs v h').
        { destruct (element_of_impl (attrs_of ty) (fun a => VStruct a []) _
            (fun a h evs w h' => w = a /\ spaces blank h evs h') v h evs h' (fun a h evs h' C => ex_intro _ a (conj (proj1 C) (conj eq_refl (proj2 C)))) V) as (w & -> & V').
          apply (reads_lift blank (fun a => VStruct a []) DEmpty); [reflexivity|]. exact (empty_element _ _ _ _ _ _ _ _ V'). }
        destruct (direct attributed min max c) eqn:DI; [|exact EE].
        unfold DocSpec.direct in DI. apply andb_prop in DI as [DI _]. apply andb_prop in DI as [DI _].
        destruct (once_is _ _ DI) as [-> ->]. destruct ps; [|discriminate NA].
        destruct c; [exact EE|discriminate NC|exact EE].
      + assert (NE : ps <> []) by (intros ->; destruct max as [|[|]]; discriminate NA).
        assert (NM : map (member_of ff no_attrs (type_deser m)) ps <> []) by (destruct ps; [elim NE; reflexivity|discriminate]).
        assert (MO' := members_ok blank ff no_attrs (type_deser m) (valid n) RG ps TP).
        unfold type_value in V. destruct (direct attributed min max c) eqn:DI.
        * assert (ON := DI). unfold DocSpec.direct in ON. apply andb_prop in ON as [ON _]. apply andb_prop in ON as [ON _].
          destruct (once_is _ _ ON) as [-> ->]. destruct c.
          -- destruct (map (member_of ff no_attrs (type_deser m)) ps) as [|m0 ml] eqn:EM; [elim NM; reflexivity|]. rewrite <- EM in *.
             destruct (element_of_impl (attrs_of ty) (fun x => VStruct (fst x) (snd x)) _
               (fun a h evs w h' => exists p, follows blank (map (slot_of blank ff no_attrs (valid n)) ps) (first_place (map (slot_of blank ff no_attrs (valid n)) ps)) h evs p h' /\ fst w = a /\
                   settled_at (map (slot_of blank ff no_attrs (valid n)) ps) p (snd w)) v h evs h' (fun a h evs h' C => 
                   match C with ex_intro _ vals (ex_intro _ more (conj R TV)) =>
                     match direct_sequence (type_deser m) (valid n) RG ps TP a h evs vals more h' v NE R TV with
                     | ex_intro _ fields (ex_intro _ p (conj E (conj F ST))) =>
                        ex_intro _ (a, fields) (conj E (ex_intro _ p (conj F (conj eq_refl ST)))) end end) V) as (w & -> & V').
             apply (reads_lift blank (fun x => VStruct (fst x) (snd x)) DSequence); [reflexivity|].
             exact (sequence_element _ _ _ _ _ _ _ _ MO' _ _ _ _ eq_refl NM V').
          -- assert (NN : no_elements CChoice (map absent ps) = None).
             { cbn in NF. rewrite ?DI in NF. cbn in NF. unfold may_be_empty in NF. destruct (no_elements CChoice (map absent ps)); [discriminate NF|reflexivity]. }
             destruct (element_of_impl (attrs_of ty) (fun x => VEnum (fst x) (snd x)) _
               (fun a h evs w h' => choice_content blank false (map (slot_of blank ff no_attrs (valid n)) ps) h evs w h') v h evs h' (fun a h evs h' C => 
                   match C with ex_intro _ vals (ex_intro _ more (conj R TV)) =>
                     match direct_choice (type_deser m) (valid n) RG ps TP a h evs vals more h' v NE NN R TV with
                     | ex_intro _ i (ex_intro _ vs (conj E F)) => ex_intro _ (i, vs) (conj E F) end end) V) as (w & -> & V').
             apply (reads_lift blank (fun x => VEnum (fst x) (snd x)) DChoice); [reflexivity|].
             exact (choice_element _ _ _ _ _ _ _ _ MO' _ _ _ _ eq_refl (fun E => NM) V').
          -- destruct (map (member_of ff no_attrs (type_deser m)) ps) as [|m0 ml] eqn:EM; [elim NM; reflexivity|]. rewrite <- EM in *.
             destruct (element_of_impl (attrs_of ty) (fun x => VStruct (fst x) (snd x)) _
               (fun a h evs w h' => exists p, scattered blank (map (slot_of blank ff no_attrs (valid n)) ps) (first_place (map (slot_of blank ff no_attrs (valid n)) ps)) h evs p h' /\ fst w = a /\
                   settled_at (map (slot_of blank ff no_attrs (valid n)) ps) p (snd w)) v h evs h' (fun a h evs h' C => 
                   match C with ex_intro _ vals (ex_intro _ more (conj R TV)) =>
                     match direct_all (type_deser m) (valid n) RG ps TP a h evs vals more h' v NE R TV with
                     | ex_intro _ fields (ex_intro _ p (conj E (conj F ST))) =>
                        ex_intro _ (a, fields) (conj E (ex_intro _ p (conj F (conj eq_refl ST)))) end end) V) as (w & -> & V').
             apply (reads_lift blank (fun x => VStruct (fst x) (snd x)) DAll); [reflexivity|].
             exact (all_element _ _ _ _ _ _ _ MO' _ _ _ _ eq_refl V').
        * rewrite (content_has min max ps NA).
          assert (BO' : bounds_ok min max = true) by (destruct max as [|[|]]; [exact BO|discriminate NA|exact BO]).
          assert (CM : member_ok blank (content_member no_attrs min max c (defaultable_group c ps) (map (member_of ff no_attrs (type_deser m)) ps))
                         (content_slot blank ff no_attrs (valid n) min max c ps)).
          { apply (content_member_ok blank no_attrs c _ _ _ MO' NM); [exact BO'|].
            pose proof (raw_default_ok blank ff no_attrs (type_deser m) (valid n) c (defaultable_group c ps) _ _ MO' NM ps eq_refl eq_refl (defaultable_plain c ps)) as RD.
            unfold may_be_empty in DE.
            destruct (Nat.eqb min 0) eqn:M0; [left; apply Nat.eqb_eq; exact M0|]. right. cbn [orb] in DE.
            destruct (no_elements c (map absent ps)) as [w|] eqn:EV.
            - cbn in DE. unfold raw_default in *. rewrite (defaultable_plain c ps), DE in *. exact RD.
            - unfold raw_default in *. destruct (defaultable_group c ps); [elim RD|exact I]. }
          destruct (element_of_impl (attrs_of ty) (fun x => VStruct (fst x) [snd x]) _
            (fun a h evs w h' => fst w = a /\ exists more, repeated blank (content_slot blank ff no_attrs (valid n) min max c ps) h evs (snd w) more h') v h evs h' (fun a h evs h' C => 
                   match C with ex_intro _ vals (ex_intro _ more (conj R TV)) => ex_intro _ (a, vals) (conj TV (conj eq_refl (ex_intro _ more R))) end) V) as (w & -> & V').
          apply (reads_lift blank (fun x => VStruct (fst x) [snd x]) DContent); [reflexivity|].
          exact (content_element _ _ _ _ _ _ CM eq_refl _ _ _ _ eq_refl V').
  Qed.
End Types.

(** ** Documents *)
Section Run.
  Variable blank : bytes -> option bool.
  Context {V D : Type}.
  Variable des : deser V D.

  Lemma consumed_unconsumed ev any : consumed blank ev -> unconsumed blank None any (into_event ev) = Ok None.
  Proof.
    unfold consumed. destruct (into_event ev) as [e|]; [|reflexivity]. unfold ignorable, unconsumed. intros IG. destruct any; [|exact IG].
    destruct e; try reflexivity; discriminate IG.
  Qed.

  Lemma feeds_run d h evs art h' : feeds blank des d h evs art h' -> forall v rest, art = AData v ->
    driver_run des blank (Driver h (Some d) None) (evs ++ rest) = RDone v rest.
  Proof.
    induction 1 as [d h e h1 art ev any h2 E1 E2 C N|d h e h1 d1 ev any h2 evs art h3 E1 E2 C F IH]; intros v rest EA;
      cbn [app driver_run]; unfold driver_step; cbn [v_helper v_des v_skip handle_skip]; rewrite E1, E2; cbn [o_any o_ev o_art];
      rewrite (consumed_unconsumed _ any C).
    - subst art. reflexivity.
    - exact (IH v rest EA).
  Qed.

  Lemma begins_run h evs v h' rest : reads_element blank des h evs v h' ->
    driver_run des blank (Driver h None None) (evs ++ rest) = RDone v rest.
  Proof.
    intros B. inversion B as [h0 e h1 art0 ev any h2 E1 E2 C N|h0 e h1 d ev any h2 evs0 art0 h3 E1 E2 C F]; subst;
      cbn [app driver_run]; unfold driver_step; cbn [v_helper v_des v_skip handle_skip]; rewrite E1, E2; cbn [o_any o_ev o_art];
      rewrite (consumed_unconsumed _ any C); [reflexivity|exact (feeds_run _ _ _ _ _ F v rest eq_refl)].
  Qed.

  Lemma prolog_run h sp h' : ignores blank (de_init des) -> spaces blank h sp h' -> forall rest,
    driver_run des blank (Driver h None None) (sp ++ rest) = driver_run des blank (Driver h' None None) rest.
  Proof.
    intros IG. induction 1 as [|h e h1 evs h2 I1 E1 S IH]; intros rest; [reflexivity|].
    cbn [app driver_run]. unfold driver_step. cbn [v_helper v_des v_skip handle_skip]. rewrite E1.
    destruct (IG h1 e I1) as (ev & any & -> & C). cbn [o_any o_ev o_art]. rewrite (consumed_unconsumed _ any C). exact (IH rest).
  Qed.
End Run.

Section Documents.
  Context {T A : Type}.
  Variable blank : bytes -> option bool.
  Variable ff : flat_flags.
  Variable no_attrs : A.
  Variable attrs_of : nat -> dhelper -> bytes -> list attr -> outcome kind (A * dhelper).
  Variable parse : nat -> dhelper -> bytes -> outcome kind (T * dhelper).
  Variable charref : bytes -> option bytes.
  Variable env : nat -> tdef.
  Notation type_deser := (type_deser ff no_attrs attrs_of parse charref utf8_valid env).

  Lemma type_ignores m ty : ignores blank (de_init (type_deser (S m) ty)).
  Proof.
    intros h e IG. destruct (ignorable_kind _ _ IG) as [TE _].
    cbn [DocModel.type_deser]. destruct (env ty) as [| |attributed min max c ps].
    - exists (DContinue e), false. split; [|exact IG]. destruct e; try discriminate TE; reflexivity.
    - exists (DBreak e), false. split; [|exact IG]. destruct e; try discriminate TE; reflexivity.
    - exists (DContinue e), false. split; [|exact IG]. unfold DocModel.complex_deser. destruct (flattened _ _ _ _ _).
      + destruct c; [destruct (map _ ps)| |destruct (map _ ps)]; destruct e; try discriminate TE; reflexivity.
      + destruct (has_content _ _ _); destruct e; try discriminate TE; reflexivity.
  Qed.

  Lemma document_read n m ty prolog evs v h h' rest :
    (forall ty, tame_type (T:=T) ff no_attrs (env ty) = true) ->
    n <= m -> spaces blank dhelper_default prolog h ->
    valid blank ff no_attrs attrs_of parse charref env n ty h evs v h' ->
    driver_run (type_deser m ty) blank driver_new (prolog ++ evs ++ rest) = RDone v rest.
  Proof.
    intros TT LE SP V. destruct m as [|m]; [destruct n; [elim V|lia]|].
    rewrite (prolog_run _ _ _ _ _ (type_ignores m ty) SP).
    exact (begins_run _ _ _ _ _ _ _ (proj1 (valid_reads blank ff no_attrs attrs_of parse charref env TT n (S m) ty h evs v h' LE V))).
  Qed.
End Documents.
