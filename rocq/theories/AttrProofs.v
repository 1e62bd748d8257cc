(** Proofs about the attributes of generated types. *)
From Verif Require Import AttrModel AttrSpec TextProofs.
Local Open Scope string_scope.

Lemma starts_with_app p s : starts_with p s = true <-> exists t, s = (p ++ t)%string.
Proof.
  revert s; induction p as [|c p IH]; intros s; cbn.
  - split; intros _; [eexists; reflexivity|reflexivity].
  - destruct s as [|d s]; [split; [discriminate|intros (t & H); discriminate]|].
    rewrite andb_true_iff, IH. split.
    + intros [E (t & ->)]. apply Ascii.eqb_eq in E as ->. exists t; reflexivity.
    + intros (t & H). injection H as -> ->. split; [apply Ascii.eqb_refl|eexists; reflexivity].
Qed.
Lemma is_xmlns_spec k : is_xmlns k = true <-> declares_namespace k.
Proof. unfold is_xmlns, declares_namespace. rewrite orb_true_iff, String.eqb_eq, starts_with_app. tauto. Qed.
Lemma is_xmlns_no k : is_xmlns k = false <-> ~ declares_namespace k.
Proof. rewrite <- is_xmlns_spec. destruct (is_xmlns k); split; congruence. Qed.

Lemma nth_set_slot {V} i j (s : slot V) l :
  nth_error (set_slot i s l) j = if Nat.eqb i j then match nth_error l j with Some _ => Some s | None => None end else nth_error l j.
Proof.
  revert i j; induction l as [|x l IH]; intros [|i] [|j]; cbn; auto.
  - destruct (Nat.eqb i j); reflexivity.
Qed.
Lemma length_set_slot {V} i (s : slot V) l : length (set_slot i s l) = length l.
Proof. revert i; induction l as [|x l IH]; intros [|i]; cbn; auto. Qed.

Lemma nth_error_ext {A} (l m : list A) : (forall i, nth_error l i = nth_error m i) -> l = m.
Proof.
  revert m; induction l as [|x l IH]; intros [|y m] H; [reflexivity|specialize (H 0); discriminate|specialize (H 0); discriminate|].
  pose proof (H 0) as E. injection E as ->. f_equal. apply IH. intros i. exact (H (S i)).
Qed.

Lemma existsb_eqb k l : existsb (String.eqb k) l = true <-> In k l.
Proof.
  rewrite existsb_exists. split.
  - intros (x & I & E). apply String.eqb_eq in E as ->. exact I.
  - intros I. exists k. split; [exact I|apply String.eqb_refl].
Qed.
Lemma existsb_eqb_no k l : existsb (String.eqb k) l = false <-> ~ In k l.
Proof. rewrite <- existsb_eqb. destruct (existsb _ l); split; congruence. Qed.

Section Loop.
  Context {V : Type}.
  Variable parse : nat -> resolver -> bytes -> option V.
  Variable charref : bytes -> option bytes.
  Variable utf8_ok : bytes -> bool.
  Variable ds : list (decl V).
  Variable allow_any : bool.
  Variable r : resolver.
  Notation target := (target ds r).
  Notation read_loop := (read_loop parse charref utf8_ok ds allow_any r).
  Notation read_slot := (read_slot parse charref utf8_ok r).

  Definition shaped (d : decl V) (s : slot V) : Prop :=
    match d, s with DField _, FValue _ => True | DAny, FAny _ => True | _, _ => False end.
  Definition fval (f : field V) (x : attr) (v : V) : Prop :=
    utf8_ok (snd x) = true /\ exists t, unescape charref (snd x) = Some t /\ parse (af_type f) r t = Some v.
  Definition after (d : decl V) (m : list attr) (s s' : slot V) : Prop :=
    match d with
    | DField f => (m = [] /\ s' = s) \/ exists x v, m = [x] /\ s = FValue None /\ fval f x v /\ s' = FValue (Some v)
    | DAny => exists acc, s = FAny acc /\ s' = FAny (acc ++ m)%list
    end.
  Definition is_mine (i : nat) (x : attr) : bool :=
    negb (is_xmlns (fst x)) && match target (fst x) with Some j => Nat.eqb j i | None => false end.
  Definition mine (i : nat) (l : list attr) : list attr := filter (is_mine i) l.

  Lemma after_nil d s s' : shaped d s -> (after d [] s s' <-> s' = s).
  Proof.
    destruct d as [f|], s as [o|acc]; cbn; intros K; try contradiction.
    - split; [intros [[_ H]|(x & v & H & _)]; [exact H|discriminate]|auto].
    - split; [intros (acc' & E & ->); injection E as <-; rewrite app_nil_r; reflexivity|].
      intros ->. exists acc. rewrite app_nil_r. auto.
  Qed.

  Lemma fval_fun f x v w : fval f x v -> fval f x w -> v = w.
  Proof. intros (_ & t & E & P) (_ & t' & E' & P'). congruence. Qed.

  (** One attribute more in front. *)
  Lemma after_cons d x m s s1 s' : shaped d s -> read_slot d s x = Ok s1 -> after d m s1 s' -> after d (x :: m) s s'.
  Proof.
    destruct d as [f|], s as [[v|]|acc]; cbn; intros K R A; try contradiction; try discriminate.
    - destruct (utf8_ok (snd x)) eqn:U; [|discriminate].
      destruct (unescape charref (snd x)) as [t|] eqn:E; [|discriminate].
      destruct (parse (af_type f) r t) as [v|] eqn:P; [|discriminate]. injection R as <-.
      destruct A as [[-> ->]|(y & w & _ & H & _)]; [|discriminate].
      right. exists x, v. split; [reflexivity|]. split; [reflexivity|]. split; [|reflexivity].
      split; [exact U|]. exists t. auto.
    - destruct (existsb (fun y => String.eqb (fst y) (fst x)) acc); [discriminate|]. injection R as <-.
      destruct A as (acc' & E & ->). injection E as <-. exists acc. rewrite <- app_assoc. auto.
  Qed.
  Lemma after_cons_inv d x m s s' :
    shaped d s -> (forall acc, s = FAny acc -> ~ In (fst x) (map fst acc)) -> after d (x :: m) s s' ->
    exists s1, read_slot d s x = Ok s1 /\ shaped d s1 /\ after d m s1 s'.
  Proof.
    destruct d as [f|], s as [[v|]|acc]; cbn; intros K F A; try contradiction.
    - destruct A as [[H _]|(y & w & _ & H & _)]; discriminate.
    - destruct A as [[H _]|(y & w & E & _ & (U & t & E' & P) & ->)]; [discriminate|]. injection E as <- ->.
      rewrite U, E', P. eexists. split; [reflexivity|]. split; [exact Logic.I|]. left. auto.
    - destruct A as (acc' & E & ->). injection E as <-.
      destruct (existsb (fun y => String.eqb (fst y) (fst x)) acc) eqn:X.
      { exfalso. apply existsb_exists in X as (y & I & E). apply String.eqb_eq in E.
        apply (F acc eq_refl). rewrite <- E. apply in_map, I. }
      eexists. split; [reflexivity|]. split; [exact Logic.I|]. exists (acc ++ [x])%list. rewrite <- app_assoc. auto.
  Qed.
  Lemma read_slot_shaped d s x s1 : read_slot d s x = Ok s1 -> shaped d s1.
  Proof.
    destruct d as [f|], s as [[v|]|acc]; cbn; intros R; try discriminate.
    - destruct (utf8_ok (snd x)); [|discriminate]. destruct (unescape charref (snd x)); [|discriminate].
      destruct (parse (af_type f) r _); [|discriminate]. injection R as <-. exact Logic.I.
    - destruct (existsb (fun y => String.eqb (fst y) (fst x)) acc); [discriminate|]. injection R as <-. exact Logic.I.
  Qed.
  Lemma read_slot_keys d s x acc : read_slot d s x = Ok (FAny acc) ->
    exists acc0, s = FAny acc0 /\ acc = (acc0 ++ [x])%list.
  Proof.
    destruct d as [f|], s as [[v|]|acc0]; cbn; intros R; try discriminate.
    - destruct (utf8_ok (snd x)); [|discriminate]. destruct (unescape charref (snd x)); [|discriminate].
      destruct (parse (af_type f) r _); discriminate.
    - destruct (existsb (fun y => String.eqb (fst y) (fst x)) acc0); [discriminate|]. injection R as <-. eauto.
  Qed.

  Definition good_slots (seen : list bytes) (slots : list (slot V)) : Prop :=
    length slots = length ds /\
    (forall i d s, nth_error ds i = Some d -> nth_error slots i = Some s -> shaped d s) /\
    (forall i acc, nth_error slots i = Some (FAny acc) -> forall x, In x acc -> In (fst x) seen).

  Definition loop_result (seen : list bytes) (slots : list (slot V)) (l : list attr) (slots' : list (slot V)) : Prop :=
    NoDup (map fst l) /\ (forall x, In x l -> ~ In (fst x) seen) /\ length slots' = length ds /\
    (forall i d s, nth_error ds i = Some d -> nth_error slots i = Some s ->
       exists s', nth_error slots' i = Some s' /\ after d (mine i l) s s') /\
    (forall x, In x l -> is_xmlns (fst x) = false -> target (fst x) = None -> allow_any || globally_allowed r (fst x) = true).

  Lemma some_slot (slots : list (slot V)) i d : length slots = length ds -> nth_error ds i = Some d -> exists s, nth_error slots i = Some s.
  Proof.
    intros L E. destruct (nth_error slots i) as [s|] eqn:N; [eauto|]. apply nth_error_None in N.
    assert (H : i < length ds) by (apply nth_error_Some; congruence). lia.
  Qed.

  Lemma chain_bound (l : list (decl V)) i k j : chain r l i k = Some j -> i <= j < i + length l.
  Proof.
    revert i; induction l as [|[f|] l IH]; intros i; cbn; [discriminate| |].
    - destruct (matches r f k); [intros [= <-]; lia|]. intros H. apply IH in H. lia.
    - intros H. apply IH in H. lia.
  Qed.
  Lemma any_bound (l : list (decl V)) i j : any_field l i = Some j -> i <= j < i + length l.
  Proof.
    revert i j; induction l as [|d l IH]; intros i j; cbn; [discriminate|].
    destruct (any_field l (S i)) as [j'|] eqn:E; [intros [= <-]; apply IH in E; lia|].
    destruct d; [discriminate|]. intros [= <-]. lia.
  Qed.
  Lemma target_decl k i : target k = Some i -> exists d, nth_error ds i = Some d.
  Proof.
    unfold AttrModel.target. intros H.
    assert (B : i < length ds).
    { destruct (chain r ds 0 k) eqn:C; [injection H as <-; apply chain_bound in C; lia|]. apply any_bound in H. lia. }
    destruct (nth_error ds i) eqn:E; [eauto|]. apply nth_error_None in E. lia.
  Qed.

  Lemma good_step seen slots i d s s1 x :
    good_slots seen slots -> nth_error ds i = Some d -> nth_error slots i = Some s -> read_slot d s x = Ok s1 ->
    good_slots (fst x :: seen) (set_slot i s1 slots).
  Proof.
    intros (L & Sh & Ac) D E R. split; [rewrite length_set_slot; exact L|]. split.
    - intros j d' s' D' E'. rewrite nth_set_slot in E'. destruct (Nat.eqb_spec i j) as [Ei|N].
      + subst j. rewrite E in E'. injection E' as <-. rewrite D in D'. injection D' as <-. eapply read_slot_shaped; eauto.
      + eapply Sh; eauto.
    - intros j acc E'. rewrite nth_set_slot in E'. destruct (Nat.eqb_spec i j) as [Ei|N].
      + subst j. rewrite E in E'. injection E' as ->. apply read_slot_keys in R as (acc0 & -> & ->).
        intros y I. apply in_app_or in I as [I|[<-|[]]]; [right; eapply Ac; eauto|left; reflexivity].
      + intros y I. right. eapply Ac; eauto.
  Qed.
  Lemma good_skip seen slots k : good_slots seen slots -> good_slots (k :: seen) slots.
  Proof. intros (L & Sh & Ac). split; [exact L|]. split; [exact Sh|]. intros i acc E x I. right. eapply Ac; eauto. Qed.

  Lemma loop_char l : forall seen slots slots', good_slots seen slots ->
    (read_loop seen slots l = Ok slots' <-> loop_result seen slots l slots').
  Proof.
    induction l as [|x l IH]; intros seen slots slots' G.
    - cbn. unfold loop_result. cbn. split.
      + intros [= <-]. split; [constructor|]. split; [tauto|]. split; [apply G|]. split; [|tauto].
        intros i d s D E. exists s. split; [exact E|]. apply after_nil; [|reflexivity]. destruct G as (_ & Sh & _). eauto.
      + intros (_ & _ & L & H & _). f_equal. destruct G as (L0 & Sh & _).
        apply nth_error_ext. intros i. destruct (nth_error ds i) as [d|] eqn:D.
        * destruct (some_slot slots i d L0 D) as (s & E). destruct (H i d s D E) as (s' & E' & A).
          apply after_nil in A; [|eauto]. subst. congruence.
        * apply nth_error_None in D. assert (N1 : nth_error slots i = None) by (apply nth_error_None; lia).
          assert (N2 : nth_error slots' i = None) by (apply nth_error_None; lia). congruence.
    - cbn [AttrModel.read_loop]. destruct (existsb (String.eqb (fst x)) seen) eqn:X.
      { split; [discriminate|]. intros (_ & F & _). exfalso. apply (F x (or_introl eq_refl)). apply existsb_eqb, X. }
      apply existsb_eqb_no in X.
      assert (Keys : NoDup (map fst (x :: l)) /\ (forall y, In y (x :: l) -> ~ In (fst y) seen) <->
                     NoDup (map fst l) /\ (forall y, In y l -> ~ In (fst y) (fst x :: seen))).
      { cbn [map]. rewrite NoDup_cons_iff. split.
        - intros [[N1 N2] F]. split; [exact N2|]. intros y I [E|J]; [apply N1; rewrite E; apply in_map, I|].
          apply (F y); [right; exact I|exact J].
        - intros [N F]. split.
          + split; [|exact N]. intros I. apply in_map_iff in I as (y & E & I). apply (F y I). left. congruence.
          + intros y [<-|I]; [exact X|]. intros J. apply (F y I). right. exact J. }
      destruct (is_xmlns (fst x)) eqn:Nx.
      + rewrite (IH _ _ _ (good_skip _ _ (fst x) G)). unfold loop_result.
        assert (M : forall i, mine i (x :: l) = mine i l) by (intros i; unfold mine; cbn; unfold is_mine at 1; rewrite Nx; reflexivity).
        split.
        * intros (N & F & L & H & Al). destruct (proj2 Keys (conj N F)) as [N' F'].
          split; [exact N'|]. split; [exact F'|]. split; [exact L|]. split.
          -- intros i d s D E. rewrite M. eauto.
          -- intros y [<-|I] Ny; [congruence|eauto].
        * intros (N & F & L & H & Al). destruct (proj1 Keys (conj N F)) as [N' F'].
          split; [exact N'|]. split; [exact F'|]. split; [exact L|]. split.
          -- intros i d s D E. rewrite <- M. eauto.
          -- intros y I. apply Al. right; exact I.
      + unfold read_one. destruct (target (fst x)) as [i|] eqn:T.
        * destruct (target_decl _ _ T) as (d & D). rewrite D.
          destruct (some_slot slots i d (proj1 G) D) as (s & E). rewrite E.
          assert (Sh : shaped d s) by (destruct G as (_ & Sh & _); eauto).
          assert (Mi : mine i (x :: l) = x :: mine i l).
          { unfold mine; cbn. unfold is_mine at 1. rewrite Nx, T, Nat.eqb_refl. reflexivity. }
          assert (Mj : forall j, j <> i -> mine j (x :: l) = mine j l).
          { intros j Nj. unfold mine; cbn. unfold is_mine at 1. rewrite Nx, T.
            destruct (Nat.eqb_spec i j); [congruence|reflexivity]. }
          split.
          -- destruct (read_slot d s x) as [s1|e|] eqn:R; try discriminate.
             rewrite (IH _ _ _ (good_step _ _ _ _ _ _ _ G D E R)). intros (N & F & L & H & Al).
             destruct (proj2 Keys (conj N F)) as [N' F']. split; [exact N'|]. split; [exact F'|]. split; [exact L|]. split.
             ++ intros j d' s0 D' E'. destruct (Nat.eq_dec j i) as [Ej|Nj].
                ** subst j. rewrite D in D'. injection D' as <-. rewrite E in E'. injection E' as <-.
                   destruct (H i d s1 D) as (s' & Es & A); [rewrite nth_set_slot, Nat.eqb_refl, E; reflexivity|].
                   exists s'. split; [exact Es|]. rewrite Mi. eapply after_cons; eauto.
                ** rewrite (Mj j Nj). apply (H j d' s0 D'). rewrite nth_set_slot. destruct (Nat.eqb_spec i j); [congruence|exact E'].
             ++ intros y [<-|I] Ny Ty; [congruence|eauto].
          -- intros (N & F & L & H & Al). destruct (H i d s D E) as (s' & Es & A). rewrite Mi in A.
             apply after_cons_inv in A as (s1 & R & Sh1 & A); [|exact Sh|].
             2:{ intros acc -> J. apply in_map_iff in J as (y & Ey & J). apply X. rewrite <- Ey.
                 destruct G as (_ & _ & Ac). eapply Ac; eauto. }
             rewrite R. apply (IH _ _ _ (good_step _ _ _ _ _ _ _ G D E R)).
             destruct (proj1 Keys (conj N F)) as [N' F']. split; [exact N'|]. split; [exact F'|]. split; [exact L|]. split.
             ++ intros j d' s0 D' E'. rewrite nth_set_slot in E'. destruct (Nat.eqb_spec i j) as [Ej|Nj].
                ** subst j. rewrite D in D'. injection D' as <-. rewrite E in E'. injection E' as <-. eauto.
                ** rewrite <- (Mj j) by congruence. eauto.
             ++ intros y I. apply Al. right; exact I.
        * destruct (allow_any || globally_allowed r (fst x)) eqn:Gl.
          -- rewrite (IH _ _ _ (good_skip _ _ (fst x) G)). unfold loop_result.
             assert (M : forall i, mine i (x :: l) = mine i l).
             { intros i; unfold mine; cbn; unfold is_mine at 1; rewrite Nx, T; reflexivity. }
             split.
             ++ intros (N & F & L & H & Al). destruct (proj2 Keys (conj N F)) as [N' F'].
                split; [exact N'|]. split; [exact F'|]. split; [exact L|]. split.
                ** intros i d s D E. rewrite M. eauto.
                ** intros y [<-|I] Ny Ty; [exact Gl|eauto].
             ++ intros (N & F & L & H & Al). destruct (proj1 Keys (conj N F)) as [N' F'].
                split; [exact N'|]. split; [exact F'|]. split; [exact L|]. split.
                ** intros i d s D E. rewrite <- M. eauto.
                ** intros y I. apply Al. right; exact I.
          -- split; [discriminate|]. intros (_ & _ & _ & _ & Al). exfalso.
             specialize (Al x (or_introl eq_refl) Nx T). congruence.
  Qed.
End Loop.

Lemma filter_positions {A} (P : A -> bool) l : forall i j x y, i < j ->
  nth_error (filter P l) i = Some x -> nth_error (filter P l) j = Some y ->
  exists i' j', i' < j' /\ nth_error l i' = Some x /\ nth_error l j' = Some y.
Proof.
  induction l as [|z l IH]; intros i j x y L E F; [destruct i; discriminate|]. cbn in E, F. destruct (P z).
  - destruct j as [|j]; [lia|]. cbn in F. destruct i as [|i].
    + injection E as ->. apply nth_error_In, filter_In in F as [F _]. apply In_nth_error in F as (j' & F).
      exists 0, (S j'). split; [lia|]. split; [reflexivity|exact F].
    + destruct (IH i j x y ltac:(lia) E F) as (i' & j' & L' & E' & F'). exists (S i'), (S j'). split; [lia|]. auto.
  - destruct (IH i j x y L E F) as (i' & j' & L' & E' & F'). exists (S i'), (S j'). split; [lia|]. auto.
Qed.
Lemma filter_positions_ne {A} (P : A -> bool) l i j x y : i <> j ->
  nth_error (filter P l) i = Some x -> nth_error (filter P l) j = Some y ->
  exists i' j', i' <> j' /\ nth_error l i' = Some x /\ nth_error l j' = Some y.
Proof.
  intros N E F. destruct (Nat.lt_total i j) as [L|[L|L]]; [|contradiction|].
  - destruct (filter_positions P l i j x y L E F) as (i' & j' & L' & H). exists i', j'. split; [lia|exact H].
  - destruct (filter_positions P l j i y x L F E) as (i' & j' & L' & H1 & H2). exists j', i'. split; [lia|auto].
Qed.

Section Fields.
  Context {V : Type}.
  Variable parse : nat -> resolver -> bytes -> option V.
  Variable charref : bytes -> option bytes.
  Variable utf8_ok : bytes -> bool.

  Section Code.
    Variable ds : list (decl V).
    Variable allow_any : bool.
    Variable r : resolver.
    Notation fval := (fval parse charref utf8_ok r).
    Notation mine := (mine ds r).

    Lemma finish_slots_char : forall (l : list (decl V)) slots out, length slots = length l ->
      (finish_slots l slots = Ok out <->
       length out = length l /\
       forall i d s, nth_error l i = Some d -> nth_error slots i = Some s -> exists s', nth_error out i = Some s' /\ finish_slot d s = Ok s').
    Proof.
      induction l as [|d l IH]; intros [|s slots] out L; try discriminate; cbn [finish_slots].
      - split; [intros [= <-]; split; [reflexivity|intros [|i] ? ? H; discriminate]|].
        intros [H _]. destruct out; [reflexivity|discriminate].
      - cbn in L. injection L as L. split.
        + destruct (finish_slot d s) as [s'| |] eqn:F; try discriminate.
          destruct (finish_slots l slots) as [ss| |] eqn:Fs; try discriminate. intros [= <-].
          apply (IH slots ss L) in Fs as (L' & H). split; [cbn; congruence|].
          intros [|i] d' s0; cbn; [intros [= <-] [= <-]; eauto|apply H].
        + intros (L' & H). destruct (H 0 d s eq_refl eq_refl) as (s' & E & ->).
          destruct out as [|s0 out]; [discriminate|]. cbn in E. injection E as ->.
          replace (finish_slots l slots) with (@Ok kind _ out); [reflexivity|]. symmetry.
          apply (IH slots out L). split; [cbn in L'; congruence|]. intros i. exact (H (S i)).
    Qed.

    (** The value of a field, from its attributes. *)
    Definition final (d : decl V) (m : list attr) (s : slot V) : Prop :=
      match d with
      | DField f =>
          (m = [] /\ (af_default f = None -> af_required f = false) /\ s = FValue (af_default f)) \/
          exists x v, m = [x] /\ fval f x v /\ s = FValue (Some v)
      | DAny => s = FAny m
      end.

    Definition result (attrs : list attr) (out : list (slot V)) : Prop :=
      NoDup (map fst attrs) /\ length out = length ds /\
      (forall i d, nth_error ds i = Some d -> exists s, nth_error out i = Some s /\ final d (mine i attrs) s) /\
      (forall x, In x attrs -> is_xmlns (fst x) = false -> target ds r (fst x) = None ->
         allow_any || globally_allowed r (fst x) = true).

    Lemma final_split d m s' :
      final d m s' <-> exists s, after parse charref utf8_ok r d m (init_slot d) s /\ finish_slot d s = Ok s'.
    Proof.
      destruct d as [f|]; cbn.
      - split.
        + intros [(-> & Rq & ->)|(x & v & -> & F & ->)].
          * exists (FValue None). split; [left; auto|]. cbn.
            destruct (af_default f); [reflexivity|]. rewrite (Rq eq_refl). reflexivity.
          * exists (FValue (Some v)). split; [right; exists x, v; auto|reflexivity].
        + intros (s & [[-> ->]|(x & v & -> & _ & F & ->)] & E).
          * left. split; [reflexivity|]. cbn in E. destruct (af_default f).
            -- injection E as <-. split; [discriminate|reflexivity].
            -- destruct (af_required f); [discriminate|]. injection E as <-. auto.
          * right. exists x, v. cbn in E. injection E as <-. auto.
      - split.
        + intros ->. exists (FAny m). split; [exists []; auto|reflexivity].
        + intros (s & (acc & E & ->) & F). injection E as <-. cbn in F. injection F as <-. reflexivity.
    Qed.

    Lemma init_good : good_slots ds [] (map init_slot ds).
    Proof.
      split; [apply map_length|]. split.
      - intros i d s D E. rewrite nth_error_map, D in E. cbn in E. injection E as <-. destruct d; exact Logic.I.
      - intros i acc E. rewrite nth_error_map in E. destruct (nth_error ds i) as [[f|]|]; cbn in E; try discriminate.
        injection E as <-. intros x [].
    Qed.

    Lemma read_fields_char attrs out : ds <> [] \/ allow_any = false ->
      (read_fields parse charref utf8_ok ds allow_any r attrs = Ok out <-> result attrs out).
    Proof.
      intros Lp. unfold read_fields.
      assert (E : (match ds, allow_any with
                   | [], true => Ok []
                   | _, _ => match read_loop parse charref utf8_ok ds allow_any r [] (map init_slot ds) attrs with
                             | Ok slots => finish_slots ds slots | Err e => Err e | Panic => Panic end
                   end : outcome kind (list (slot V))) =
                  match read_loop parse charref utf8_ok ds allow_any r [] (map init_slot ds) attrs with
                  | Ok slots => finish_slots ds slots | Err e => Err e | Panic => Panic end).
      { destruct ds; [|reflexivity]. destruct allow_any; [|reflexivity]. destruct Lp; [congruence|discriminate]. }
      rewrite E. clear E. split.
      - destruct (read_loop _ _ _ _ _ _ _ _ _) as [slots| |] eqn:Lo; try discriminate.
        apply (loop_char parse charref utf8_ok ds allow_any r attrs [] _ _ init_good) in Lo.
        destruct Lo as (N & _ & L & H & Al). intros F. apply (finish_slots_char ds slots out L) in F as (L' & F).
        split; [exact N|]. split; [exact L'|]. split; [|exact Al].
        intros i d D. destruct (H i d (init_slot d) D) as (s & Es & A).
        { rewrite nth_error_map, D. reflexivity. }
        destruct (F i d s D Es) as (s' & Es' & Fs). exists s'. split; [exact Es'|]. apply final_split. eauto.
      - intros (N & L & H & Al).
        assert (Ex : exists slots, length slots = length ds /\
                  (forall i d, nth_error ds i = Some d -> exists s s', nth_error slots i = Some s /\
                     after parse charref utf8_ok r d (mine i attrs) (init_slot d) s /\ nth_error out i = Some s' /\ finish_slot d s = Ok s')).
        { assert (G : forall (l : list (decl V)) (out : list (slot V)) (k : nat), length out = length l ->
                    (forall i d, nth_error l i = Some d -> exists s, nth_error out i = Some s /\ final d (mine (k + i) attrs) s) ->
                    exists slots, length slots = length l /\
                    (forall i d, nth_error l i = Some d -> exists s s', nth_error slots i = Some s /\
                     after parse charref utf8_ok r d (mine (k + i) attrs) (init_slot d) s /\ nth_error out i = Some s' /\ finish_slot d s = Ok s')).
          { induction l as [|d l IH]; intros [|o os] k Lk Hk; try discriminate.
            - exists []. split; [reflexivity|]. intros [|i] ? X; discriminate.
            - destruct (IH os (S k)) as (slots & Ls & Hs).
              + cbn in Lk. congruence.
              + intros i d' D. replace (S k + i) with (k + S i) by lia. apply (Hk (S i) d' D).
              + destruct (Hk 0 d eq_refl) as (s' & E' & Fn). apply final_split in Fn as (s & A & Fs).
                exists (s :: slots). split; [cbn; congruence|]. intros [|i] d' D.
                * cbn in D. injection D as <-. exists s, s'. auto.
                * destruct (Hs i d' D) as (s1 & s2 & X). exists s1, s2. replace (k + S i) with (S k + i) by lia. exact X. }
          exact (G ds out 0 L H). }
        destruct Ex as (slots & Ls & Hs).
        assert (Lo : loop_result parse charref utf8_ok ds allow_any r [] (map init_slot ds) attrs slots).
        { split; [exact N|]. split; [intros x _ []|]. split; [exact Ls|]. split; [|exact Al].
          intros i d s D E. rewrite nth_error_map, D in E. cbn in E. injection E as <-.
          destruct (Hs i d D) as (s1 & s2 & E1 & A & _). eauto. }
        apply (loop_char parse charref utf8_ok ds allow_any r attrs [] _ _ init_good) in Lo. rewrite Lo.
        apply (finish_slots_char ds slots out Ls). split; [exact L|].
        intros i d s D E. destruct (Hs i d D) as (s1 & s2 & E1 & _ & E2 & F). rewrite E in E1. injection E1 as <-. eauto.
    Qed.

    (** The chain of conditions. *)
    Lemma chain_sound (l : list (decl V)) i k j : chain r l i k = Some j ->
      exists f, nth_error l (j - i) = Some (DField f) /\ i <= j /\ matches r f k = true.
    Proof.
      revert i; induction l as [|[f|] l IH]; intros i; cbn; [discriminate| |].
      - destruct (matches r f k) eqn:M; [intros [= <-]; exists f; rewrite Nat.sub_diag; auto|].
        intros H. apply IH in H as (g & E & L & G). exists g. replace (j - i) with (S (j - S i)) by lia. split; [exact E|]. split; [lia|exact G].
      - intros H. apply IH in H as (g & E & L & G). exists g. replace (j - i) with (S (j - S i)) by lia. split; [exact E|]. split; [lia|exact G].
    Qed.
    Lemma chain_none (l : list (decl V)) i k : chain r l i k = None <-> forall f, In (DField f) l -> matches r f k = false.
    Proof.
      revert i; induction l as [|[f|] l IH]; intros i; cbn.
      - split; [intros _ f []|reflexivity].
      - destruct (matches r f k) eqn:M.
        + split; [discriminate|]. intros H. specialize (H f (or_introl eq_refl)). congruence.
        + rewrite IH. split; intros H g; [intros [[= <-]|I]; [exact M|apply H, I]|intros I; apply H; right; exact I].
      - rewrite IH. split; intros H g; [intros [X|I]; [discriminate|apply H, I]|intros I; apply H; right; exact I].
    Qed.
    Lemma any_sound (l : list (decl V)) i j : any_field l i = Some j -> nth_error l (j - i) = Some DAny /\ i <= j.
    Proof.
      revert i j; induction l as [|d l IH]; intros i j; cbn; [discriminate|].
      destruct (any_field l (S i)) as [j'|] eqn:E.
      - intros [= <-]. apply IH in E as [E L]. replace (j' - i) with (S (j' - S i)) by lia. split; [exact E|lia].
      - destruct d; [discriminate|]. intros [= <-]. rewrite Nat.sub_diag. auto.
    Qed.
    Lemma any_none (l : list (decl V)) i : any_field l i = None <-> ~ In DAny l.
    Proof.
      revert i; induction l as [|d l IH]; intros i; cbn; [split; [intros _ []|reflexivity]|].
      destruct (any_field l (S i)) as [j'|] eqn:E.
      - split; [discriminate|]. intros H. exfalso. apply any_sound in E as [E _]. apply H. right. eapply nth_error_In; eauto.
      - apply IH in E. destruct d; [|split; [discriminate|intros H; exfalso; apply H; auto]].
        split; [intros _ [X|I]; [discriminate|contradiction]|reflexivity].
    Qed.

    Section One.
      Variable k : bytes.
      Hypothesis one_field : forall i j f g, nth_error ds i = Some (DField f) -> nth_error ds j = Some (DField g) ->
        matches r f k = true -> matches r g k = true -> i = j.
      Hypothesis one_any : forall i j, nth_error ds i = Some DAny -> nth_error ds j = Some DAny -> i = j.

      Lemma target_field i f : nth_error ds i = Some (DField f) -> (target ds r k = Some i <-> matches r f k = true).
      Proof.
        intros D. unfold target. destruct (chain r ds 0 k) as [j|] eqn:C.
        - apply chain_sound in C as (g & E & _ & M). rewrite Nat.sub_0_r in E. split.
          + intros [= ->]. congruence.
          + intros M'. f_equal. eapply one_field; eauto.
        - rewrite chain_none in C. rewrite (C f) by (eapply nth_error_In; eauto). split; [|discriminate].
          intros H. apply any_sound in H as [H _]. rewrite Nat.sub_0_r in H. congruence.
      Qed.
      Lemma target_any i : nth_error ds i = Some DAny ->
        (target ds r k = Some i <-> forall f, In (DField f) ds -> matches r f k = false).
      Proof.
        intros D. unfold target. destruct (chain r ds 0 k) as [j|] eqn:C.
        - pose proof C as C'. apply chain_sound in C as (g & E & _ & M). rewrite Nat.sub_0_r in E. split.
          + intros [= ->]. congruence.
          + intros H. specialize (H g (nth_error_In _ _ E)). congruence.
        - rewrite chain_none in C. split; [auto|]. intros _. destruct (any_field ds 0) as [j|] eqn:Y.
          + apply any_sound in Y as [Y _]. rewrite Nat.sub_0_r in Y. f_equal. eauto.
          + apply any_none in Y. exfalso. apply Y. eapply nth_error_In; eauto.
      Qed.
      Lemma target_none : target ds r k = None <-> (forall f, In (DField f) ds -> matches r f k = false) /\ ~ In DAny ds.
      Proof.
        unfold target. destruct (chain r ds 0 k) as [j|] eqn:C.
        - split; [discriminate|]. intros [H _]. apply chain_sound in C as (g & E & _ & M). specialize (H g (nth_error_In _ _ E)). congruence.
        - rewrite any_none. rewrite chain_none in C. split; [intros H; exact (conj C H)|intros [_ H]; exact H].
      Qed.
    End One.
  End Code.
End Fields.

Lemma Forall2_len {A B} (P : A -> B -> Prop) l m : Forall2 P l m -> length l = length m.
Proof. induction 1; cbn; congruence. Qed.
Lemma NoDup_of_keys (l : list attr) : NoDup (map fst l) -> NoDup l.
Proof. apply NoDup_map_inv. Qed.

Lemma filter_nil {A} (p : A -> bool) l : filter p l = [] <-> forall x, In x l -> p x = false.
Proof.
  induction l as [|y l IH]; cbn; [split; [intros _ x []|reflexivity]|]. destruct (p y) eqn:E.
  - split; [discriminate|]. intros H. specialize (H y (or_introl eq_refl)). congruence.
  - rewrite IH. split; [intros H x [<-|I]; auto|intros H x I; apply H; right; exact I].
Qed.
Lemma filter_one {A} (p : A -> bool) l x : NoDup l ->
  (filter p l = [x] <-> In x l /\ p x = true /\ forall y, In y l -> p y = true -> y = x).
Proof.
  intros N. split.
  - intros E. assert (I : In x (filter p l)) by (rewrite E; left; reflexivity). apply filter_In in I as [I P].
    split; [exact I|]. split; [exact P|]. intros y J Q.
    assert (K : In y (filter p l)) by (apply filter_In; auto). rewrite E in K. destruct K as [K|[]]. congruence.
  - intros (I & P & U). pose proof (NoDup_filter p N) as N'.
    assert (J : In x (filter p l)) by (apply filter_In; auto).
    destruct (filter p l) as [|y m] eqn:E; [destruct J|].
    assert (Y : y = x). { assert (K : In y (filter p l)) by (rewrite E; left; reflexivity). apply filter_In in K as [K1 K2]. auto. }
    subst y. destruct m as [|z m]; [reflexivity|].
    assert (Z : z = x). { assert (K : In z (filter p l)) by (rewrite E; right; left; reflexivity). apply filter_In in K as [K1 K2]. auto. }
    subst z. inversion N' as [|? ? H ?]; subst. exfalso. apply H. left; reflexivity.
Qed.
Lemma selects_filter {A} (P : A -> Prop) (p : A -> bool) l : (forall x, In x l -> (P x <-> p x = true)) ->
  forall m, selects P l m <-> m = filter p l.
Proof.
  induction l as [|y l IH]; intros H m.
  - cbn. split; [inversion 1; reflexivity|intros ->; constructor].
  - assert (H' : forall x, In x l -> (P x <-> p x = true)) by (intros x I; apply H; right; exact I).
    pose proof (H y (or_introl eq_refl)) as Hy. cbn. destruct (p y).
    + split.
      * inversion 1 as [|? ? m' Py S|? ? ? Py S]; subst; [f_equal; apply (IH H'), S|exfalso; apply Py, Hy; reflexivity].
      * intros ->. constructor; [apply Hy; reflexivity|]. apply (IH H'). reflexivity.
    + split.
      * inversion 1 as [|? ? m' Py S|? ? ? Py S]; subst; [apply Hy in Py; discriminate|apply (IH H'), S].
      * intros ->. constructor; [intros Py; apply Hy in Py; discriminate|]. apply (IH H'). reflexivity.
Qed.

(** Names. *)
Lemma resolve_prefixed r k p l b : split_colon k = Some (p, l) -> resolve r k b = resolve r k false.
Proof. intros E. unfold resolve. rewrite E. reflexivity. Qed.
Lemma resolve_plain r k : split_colon k = None -> resolve r k false = (RUnbound, k).
Proof. intros E. unfold resolve. rewrite E. reflexivity. Qed.
Lemma resolve_local r k b : snd (resolve r k b) = key_local k.
Proof. unfold resolve, key_local. destruct (split_colon k) as [[p l]|]; reflexivity. Qed.

Lemma named_local r k n : named r k n -> snd n = key_local k.
Proof.
  unfold named, key_local. destruct (split_colon k) as [[p l]|]; [intros (u & _ & ->)|intros ->]; reflexivity.
Qed.
Lemma named_fun r k n m : named r k n -> named r k m -> n = m.
Proof.
  unfold named. destruct (split_colon k) as [[p l]|]; [intros (u & E & ->) (w & F & ->); congruence|congruence].
Qed.

Lemma globally_allowed_spec r k : globally_allowed r k = true <-> instance_attribute r k.
Proof.
  unfold globally_allowed, instance_attribute, named, dh_resolve. cbn [negb].
  destruct (split_colon k) as [[p l]|] eqn:E.
  - assert (L : snd (resolve r k false) = l) by (rewrite resolve_local; unfold key_local; rewrite E; reflexivity).
    destruct (resolve r k false) as [[|u|q] l0]; cbn in L; subst l0; cbn [fst].
    + split; [discriminate|intros (l' & _ & u & X & _); discriminate].
    + rewrite andb_true_iff, String.eqb_eq, existsb_eqb. split.
      * intros [-> I]. exists l. split; [exact I|]. exists XSI_NS. auto.
      * intros (l' & I & u' & X & Y). injection X as ->. injection Y as <- ->. auto.
    + split; [discriminate|intros (l' & _ & u & X & _); discriminate].
  - rewrite (resolve_plain r k E). split; [discriminate|intros (l & _ & X); discriminate].
Qed.

Section Link.
  Context {V : Type}.
  Variable parse : nat -> resolver -> bytes -> option V.
  Variable charref : bytes -> option bytes.
  Variable utf8_ok : bytes -> bool.
  Variable fd sup : bool.
  Implicit Types (a : sattr V) (l : list (sdecl V)).

  Definition field_of a : field V :=
    Field (sa_name a) (sa_ns a) (sa_prefix a) (form_of fd a)
          (match sa_use a with URequired => true | _ => false end) (sa_default a) (sa_type a).
  Definition code_of (d : sdecl V) : decl V := match d with SAttribute a => DField (field_of a) | SWildcard _ => DAny end.
  Definition is_wild (d : sdecl V) : bool := match d with SWildcard _ => true | _ => false end.

  Lemma new_fields_char l :
    new_fields fd sup l = (map code_of (filter (has_field sup) l), negb sup && existsb is_wild l).
  Proof.
    induction l as [|[a|w] l IH]; cbn [new_fields new_field]; [rewrite andb_false_r; reflexivity| |].
    - rewrite IH. cbn [filter has_field existsb is_wild]. destruct (sa_use a) eqn:U; cbn [map code_of]; unfold field_of; try rewrite U; reflexivity.
    - rewrite IH. destruct sup; reflexivity.
  Qed.

  Lemma matches_named r k a :
    (exists n, named r k n) -> clear fd r k a -> (matches r (field_of a) k = true <-> named r k (declared_name fd a)).
  Proof.
    intros (n & Nn) C. unfold matches. cbn [field_of af_ns af_name].
    assert (Loc : forall b, snd (resolve r k b) = key_local k) by (intros b; apply resolve_local).
    assert (Dn : snd (declared_name fd a) = sa_name a).
    { unfold declared_name. destruct (sa_ref a); [reflexivity|]. destruct (match sa_form a with Some f => f | None => fd end); reflexivity. }
    assert (Ds : fst (declared_name fd a) = None \/ fst (declared_name fd a) = sa_ns a).
    { unfold declared_name. destruct (sa_ref a); [auto|]. destruct (match sa_form a with Some f => f | None => fd end); auto. }
    unfold resolve_local_name, dh_resolve. cbn [negb]. unfold clear in C. unfold named in C, Nn |- *. unfold key_local in *.
    destruct (split_colon k) as [[p l]|] eqn:E.
    - specialize (Loc false). destruct Nn as (u & Ru & ->).
      destruct (resolve r k false) as [res l0]. cbn in Loc, Ru. subst l0 res. cbn [fst].
      destruct (sa_ns a) as [ns|] eqn:Ns.
      + destruct (String.eqb_spec u ns) as [Eu|Nu].
        * subst ns. rewrite String.eqb_eq. split.
          -- intros ->. destruct (C eq_refl) as [(u' & X & Y)|[_ C2]]; [exists u'; auto|].
             exfalso. apply C2. exists u. auto.
          -- intros (u' & X & Y). rewrite Y in Dn. cbn in Dn. exact Dn.
        * split; [discriminate|]. intros (u' & X & Y). injection X as <-. rewrite Y in Ds. cbn in Ds. destruct Ds; congruence.
      + rewrite String.eqb_eq. split.
        * intros ->. destruct (C eq_refl) as [(u' & X & Y)|[C1 _]]; [exists u'; auto|congruence].
        * intros (u' & X & Y). rewrite Y in Dn. cbn in Dn. exact Dn.
    - rewrite (resolve_plain r k E). clear Nn Loc. destruct (declared_name fd a) as [dn dl] eqn:Dd. cbn in Dn, Ds, C. subst dl.
      assert (Target : k = sa_name a -> (dn, sa_name a) = (None, k)).
      { intros K. pose proof (C K). congruence. }
      destruct (sa_ns a) as [ns|] eqn:Ns; (rewrite String.eqb_eq; split; [exact Target|congruence]).
  Qed.

  Section Tame.
    Variable l : list (sdecl V).
    Variable r : resolver.
    Variable attrs : list attr.
    Hypothesis Pl : plain_declarations fd l.
    Hypothesis Cl : clear_document fd l r attrs.
    Let fields := filter (has_field sup) l.
    Let ds := map code_of fields.
    Let allow := negb sup && existsb is_wild l.

    Lemma field_declares a : In (SAttribute a) fields <-> declares l a.
    Proof.
      unfold fields, declares. rewrite filter_In. cbn. destruct (sa_use a); split; intros [I U]; split; auto; congruence.
    Qed.
    Lemma ds_field f : In (DField f) ds <-> exists a, declares l a /\ f = field_of a.
    Proof.
      unfold ds. rewrite in_map_iff. split.
      - intros ([a|w] & E & I); [|discriminate]. injection E as <-. exists a. rewrite <- field_declares. auto.
      - intros (a & I & ->). exists (SAttribute a). rewrite field_declares. auto.
    Qed.
    Lemma nth_ds i : nth_error ds i = option_map code_of (nth_error fields i).
    Proof. unfold ds. apply nth_error_map. Qed.

    Section Key.
      Variable x : attr.
      Hypothesis Ix : In x attrs.
      Hypothesis Nx : ~ declares_namespace (fst x).

      Lemma match_key a : declares l a -> (matches r (field_of a) (fst x) = true <-> carries fd r a x).
      Proof.
        intros D. destruct (Cl x Ix Nx) as [Nm C]. rewrite (matches_named r (fst x) a Nm (C a D)).
        unfold carries. tauto.
      Qed.
      Lemma key_one_field i j f g : nth_error ds i = Some (DField f) -> nth_error ds j = Some (DField g) ->
        matches r f (fst x) = true -> matches r g (fst x) = true -> i = j.
      Proof.
        rewrite !nth_ds. intros E F M G.
        destruct (nth_error fields i) as [[a|w]|] eqn:Ei; cbn in E; try discriminate. injection E as <-.
        destruct (nth_error fields j) as [[b|w]|] eqn:Ej; cbn in F; try discriminate. injection F as <-.
        assert (Da : declares l a) by (apply field_declares; eapply nth_error_In; eauto).
        assert (Db : declares l b) by (apply field_declares; eapply nth_error_In; eauto).
        apply (match_key a Da) in M as [_ M]. apply (match_key b Db) in G as [_ G].
        destruct (Nat.eq_dec i j) as [Eij|N]; [exact Eij|]. exfalso.
        destruct (filter_positions_ne _ _ _ _ _ _ N Ei Ej) as (i' & j' & N' & A & B).
        destruct Pl as (P1 & _ & _). apply (P1 i' j' a b N' A B (proj2 Da) (proj2 Db)). eapply named_fun; eauto.
      Qed.
      Lemma key_one_any i j : nth_error ds i = Some DAny -> nth_error ds j = Some DAny -> i = j.
      Proof.
        rewrite !nth_ds. intros E F.
        destruct (nth_error fields i) as [[a|w]|] eqn:Ei; cbn in E; try discriminate.
        destruct (nth_error fields j) as [[a|u]|] eqn:Ej; cbn in F; try discriminate.
        destruct (Nat.eq_dec i j) as [Eij|N]; [exact Eij|]. exfalso.
        destruct (filter_positions_ne _ _ _ _ _ _ N Ei Ej) as (i' & j' & N' & A & B).
        destruct Pl as (_ & _ & P3). apply N'. apply (P3 i' j' w u A B).
      Qed.

      Lemma no_match : (forall f, In (DField f) ds -> matches r f (fst x) = false) <-> undeclared fd l r x.
      Proof.
        split.
        - intros H. split; [exact Nx|]. intros a D C. apply (match_key a D) in C.
          rewrite (H (field_of a)) in C; [discriminate|]. apply ds_field. eauto.
        - intros [_ H] f I. apply ds_field in I as (a & D & ->).
          destruct (matches r (field_of a) (fst x)) eqn:M; [|reflexivity]. exfalso. apply (H a D), (match_key a D), M.
      Qed.
      Lemma mine_field i a : nth_error fields i = Some (SAttribute a) -> (is_mine ds r i x = true <-> carries fd r a x).
      Proof.
        intros E. assert (D : declares l a) by (apply field_declares; eapply nth_error_In; eauto).
        rewrite <- (match_key a D). unfold is_mine. rewrite (proj2 (is_xmlns_no _) Nx). cbn [negb andb].
        rewrite <- (target_field ds r (fst x) key_one_field i (field_of a)) by (rewrite nth_ds, E; reflexivity).
        destruct (target ds r (fst x)) as [j|]; [rewrite Nat.eqb_eq; split; congruence|split; discriminate].
      Qed.
      Lemma mine_any i w : nth_error fields i = Some (SWildcard w) -> (is_mine ds r i x = true <-> undeclared fd l r x).
      Proof.
        intros E. rewrite <- no_match. unfold is_mine. rewrite (proj2 (is_xmlns_no _) Nx). cbn [negb andb].
        rewrite <- (target_any ds r (fst x) key_one_any i) by (rewrite nth_ds, E; reflexivity).
        destruct (target ds r (fst x)) as [j|]; [rewrite Nat.eqb_eq; split; congruence|split; discriminate].
      Qed.
      Lemma no_target : target ds r (fst x) = None <-> undeclared fd l r x /\ ~ In DAny ds.
      Proof. rewrite target_none, no_match. tauto. Qed.
    End Key.

    Lemma mine_xmlns i x : declares_namespace (fst x) -> is_mine ds r i x = false.
    Proof. intros D. unfold is_mine. rewrite (proj2 (is_xmlns_spec _) D). reflexivity. Qed.
    Lemma mine_field' i a x : nth_error fields i = Some (SAttribute a) -> In x attrs ->
      (is_mine ds r i x = true <-> carries fd r a x).
    Proof.
      intros E I. destruct (is_xmlns (fst x)) eqn:X.
      - apply is_xmlns_spec in X. rewrite (mine_xmlns i x X). split; [discriminate|intros [H _]; contradiction].
      - apply is_xmlns_no in X. apply mine_field; auto.
    Qed.
    Lemma mine_any' i w x : nth_error fields i = Some (SWildcard w) -> In x attrs ->
      (is_mine ds r i x = true <-> undeclared fd l r x).
    Proof.
      intros E I. destruct (is_xmlns (fst x)) eqn:X.
      - apply is_xmlns_spec in X. rewrite (mine_xmlns i x X). split; [discriminate|intros [H _]; contradiction].
      - apply is_xmlns_no in X. eapply mine_any; eauto.
    Qed.

    Lemma final_field i d s : NoDup attrs -> nth_error fields i = Some d ->
      (final parse charref utf8_ok r (code_of d) (mine ds r i attrs) s <->
       field_value parse charref utf8_ok fd l r attrs d s).
    Proof.
      intros N E. destruct d as [a|w]; cbn [code_of final field_value].
      - assert (D : declares l a) by (apply field_declares; eapply nth_error_In; eauto).
        destruct (proj1 (proj2 Pl) a D) as [Fx Rq]. rewrite Fx. cbn [field_of af_default af_required].
        assert (Mn : mine ds r i attrs = [] <-> forall x, In x attrs -> ~ carries fd r a x).
        { unfold mine. rewrite filter_nil. split; intros H x I.
          - rewrite <- (mine_field' i a x E I), (H x I). discriminate.
          - specialize (H x I). rewrite <- (mine_field' i a x E I) in H. destruct (is_mine ds r i x); congruence. }
        assert (Mo : forall x, mine ds r i attrs = [x] <->
                  In x attrs /\ carries fd r a x /\ forall y, In y attrs -> carries fd r a y -> y = x).
        { intros x. unfold mine. rewrite (filter_one _ _ _ N). split; intros (I & C & U).
          - split; [exact I|]. split; [apply (mine_field' i a x E I), C|]. intros y J Cy. apply (U y J), (mine_field' i a y E J), Cy.
          - split; [exact I|]. split; [apply (mine_field' i a x E I), C|]. intros y J Cy. apply (U y J), (mine_field' i a y E J), Cy. }
        destruct s as [o|m].
        + split.
          * intros [(M & R & S)|(x & v & M & F & S)].
            -- right. split; [apply Mn, M|]. injection S as ->. split; [|reflexivity].
               intros U. rewrite U in R. specialize (R (Rq U)). discriminate.
            -- left. apply Mo in M as (I & C & U). injection S as ->. exists x, v.
               split; [exact I|]. split; [exact C|]. split; [exact U|]. split; [exact F|]. split; [discriminate|reflexivity].
          * intros [(x & v & I & C & U & F & _ & ->)|(H & R & ->)].
            -- right. exists x, v. split; [apply Mo; auto|]. split; [exact F|reflexivity].
            -- left. split; [apply Mn, H|]. split; [|reflexivity]. intros _. destruct (sa_use a); congruence.
        + split; [intros [(_ & _ & S)|(x & v & _ & _ & S)]; discriminate|contradiction].
      - destruct s as [o|m]; [split; [discriminate|contradiction]|].
        rewrite (selects_filter (undeclared fd l r) (is_mine ds r i) attrs).
        + unfold mine. split; congruence.
        + intros x I. symmetry. eapply mine_any'; eauto.
    Qed.

    Lemma wild_cases : existsb is_wild l = true <-> exists w, In (SWildcard w) l.
    Proof.
      rewrite existsb_exists. split; [intros ([a|w] & I & E); [discriminate|eauto]|intros (w & I); exists (SWildcard w); auto].
    Qed.
    Lemma wild_any w : In (SWildcard w) l -> w = WAny.
    Proof. intros I. apply In_nth_error in I as (i & E). destruct Pl as (_ & _ & P3). apply (P3 i i w w E E). Qed.
    Lemma any_in : In DAny ds <-> sup = true /\ exists w, In (SWildcard w) l.
    Proof.
      unfold ds, fields. rewrite in_map_iff. split.
      - intros ([a|w] & E & I); [discriminate|]. apply filter_In in I as [I H]. cbn in H. eauto.
      - intros [H (w & I)]. exists (SWildcard w). split; [reflexivity|]. apply filter_In. auto.
    Qed.

    Lemma result_valid slots : result parse charref utf8_ok ds allow r attrs slots <-> valid parse charref utf8_ok fd sup l r attrs slots.
    Proof.
      unfold result, valid. fold fields.
      assert (Al : (forall x, In x attrs -> is_xmlns (fst x) = false -> target ds r (fst x) = None -> allow || globally_allowed r (fst x) = true) <->
                   (forall x, In x attrs -> undeclared fd l r x -> instance_attribute r (fst x) \/
                      exists w n, In (SWildcard w) l /\ named r (fst x) n /\ allows w (fst n))).
      { split.
        - intros H x I U. pose proof (proj1 U) as Nx. destruct (existsb is_wild l) eqn:W.
          + right. apply wild_cases in W as (w & W). pose proof (wild_any w W) as ->.
            destruct (Cl x I Nx) as [(n & Nm) _]. exists WAny, n. split; [exact W|]. split; [exact Nm|exact Logic.I].
          + left. apply (globally_allowed_spec r (fst x)).
            assert (T : target ds r (fst x) = None).
            { apply no_target; auto. split; [exact U|]. intros A. apply any_in in A as [_ A]. apply wild_cases in A. congruence. }
            specialize (H x I (proj2 (is_xmlns_no _) Nx) T). unfold allow in H. rewrite ?W in H. rewrite andb_false_r in H. exact H.
        - intros H x I X T. apply is_xmlns_no in X. apply (no_target x I X) in T as [U A].
          destruct (H x I U) as [G|(w & n & W & _)].
          + apply (globally_allowed_spec r (fst x)) in G. rewrite G. apply orb_true_r.
          + unfold allow. destruct (Bool.bool_dec sup true) as [Sp|Sp].
            * exfalso. apply A, any_in. split; [exact Sp|eauto].
            * apply not_true_is_false in Sp. rewrite Sp. replace (existsb is_wild l) with true; [reflexivity|]. symmetry. apply wild_cases. eauto. }
      rewrite Al. split.
      - intros (N & L & H & A). split; [exact N|]. split; [|exact A]. apply NoDup_of_keys in N.
        assert (G : forall (fs : list (sdecl V)) ss, length ss = length fs ->
                  (forall i d, nth_error fs i = Some d -> exists s, nth_error ss i = Some s /\ field_value parse charref utf8_ok fd l r attrs d s) ->
                  Forall2 (field_value parse charref utf8_ok fd l r attrs) fs ss).
        { induction fs as [|d fs IH]; intros [|s ss] L' H'; try discriminate; constructor.
          - destruct (H' 0 d eq_refl) as (s' & E & F). cbn in E. congruence.
          - apply IH; [cbn in L'; congruence|]. intros i. exact (H' (S i)). }
        apply G; [rewrite L; unfold ds; apply map_length|]. intros i d E.
        destruct (H i (code_of d)) as (s & Es & F); [rewrite nth_ds, E; reflexivity|]. exists s. split; [exact Es|].
        apply (final_field i d s N E), F.
      - intros (N & F & A). split; [exact N|]. apply NoDup_of_keys in N.
        split; [unfold ds; rewrite map_length; symmetry; eapply Forall2_len; eauto|]. split; [|exact A].
        intros i c E. rewrite nth_ds in E. destruct (nth_error fields i) as [d|] eqn:D; [|discriminate]. injection E as <-.
        assert (G : forall (fs : list (sdecl V)) ss, Forall2 (field_value parse charref utf8_ok fd l r attrs) fs ss ->
                  forall i d, nth_error fs i = Some d -> exists s, nth_error ss i = Some s /\ field_value parse charref utf8_ok fd l r attrs d s).
        { induction 1 as [|d0 s0 fs ss Fh Ft IH]; intros [|j] d1 E1; try discriminate.
          - injection E1 as <-. exists s0. auto.
          - apply (IH j d1 E1). }
        destruct (G _ _ F i d D) as (s & Es & Fv). exists s. split; [exact Es|]. apply (final_field i d s N D), Fv.
    Qed.

    Lemma read_valid slots : valid parse charref utf8_ok fd sup l r attrs slots ->
      read_attributes parse charref utf8_ok fd sup l r attrs = Ok slots.
    Proof.
      intros Vd. unfold read_attributes. rewrite new_fields_char. change (map code_of (filter (has_field sup) l)) with ds. fold allow.
      destruct ds eqn:Eds; [destruct allow eqn:Ea|].
      - cbn. destruct Vd as (_ & F & _). fold fields in F.
        assert (Fn : fields = []) by (unfold ds in Eds; destruct fields; [reflexivity|discriminate]).
        rewrite Fn in F. inversion F. reflexivity.
      - rewrite <- Eds. apply read_fields_char; [right; reflexivity|]. rewrite <- Ea. apply result_valid, Vd.
      - rewrite <- Eds. apply read_fields_char; [left; congruence|]. apply result_valid, Vd.
    Qed.
    Lemma read_only slots : NoDup (map fst attrs) \/ fields <> [] \/ (forall w, ~ In (SWildcard w) l) ->
      read_attributes parse charref utf8_ok fd sup l r attrs = Ok slots ->
      valid parse charref utf8_ok fd sup l r attrs slots.
    Proof.
      intros Lp. unfold read_attributes. rewrite new_fields_char. change (map code_of (filter (has_field sup) l)) with ds. fold allow.
      destruct ds eqn:Eds; [destruct allow eqn:Ea|].
      - assert (Fn : fields = []) by (unfold ds in Eds; destruct fields; [reflexivity|discriminate]).
        cbn. intros [= <-]. unfold allow in Ea. apply andb_true_iff in Ea as [_ W]. apply wild_cases in W as (w & W).
        split.
        { destruct Lp as [N|[X|X]]; [exact N|congruence|]. exfalso. exact (X w W). }
        split; [fold fields; rewrite Fn; constructor|]. intros x I U. right. pose proof (wild_any w W) as ->.
        destruct (Cl x I (proj1 U)) as [(n & Nm) _]. exists WAny, n. split; [exact W|]. split; [exact Nm|exact Logic.I].
      - intros R. rewrite <- Eds in R. apply read_fields_char in R; [|right; reflexivity]. rewrite <- Ea in R. apply result_valid, R.
      - intros R. rewrite <- Eds in R. apply read_fields_char in R; [|left; congruence]. apply result_valid, R.
    Qed.
  End Tame.
End Link.
