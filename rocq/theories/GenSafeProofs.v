(** No generated deserializer comes to one of its [unreachable!()] states, whatever the
    events are: invariants of the state machines.  The deserializers of elements are only
    known to be safe for a number of events, because the deserializers of a schema are
    known up to a depth. *)
From Verif Require Import DeSpec GenModel GenSpec GenFrameProofs.
Local Open Scope list_scope.

Definition quiet {X} (r : outcome kind X) : Prop := r <> Panic.

Lemma quiet_ok {X} (x : X) : quiet (Ok x).
Proof. discriminate. Qed.
Lemma quiet_err {X} k : quiet (X:=X) (Err k).
Proof. discriminate. Qed.
Lemma quiet_bind {X Y} (x : outcome kind X) (f : X -> outcome kind Y) :
  quiet x -> (forall a, x = Ok a -> quiet (f a)) -> quiet (obind x f).
Proof. destruct x; cbn; intros Q F; [apply F; reflexivity|apply quiet_err|elim Q; reflexivity]. Qed.
Global Hint Resolve quiet_ok quiet_err : safe.

(** The driver gives up on this answer. *)
Definition doomed {X Y} (o : dout X Y) : Prop :=
  o_any o = false /\ exists e, o_ev o = DBreak e /\ is_tag e = true.

(** The answer to an event. *)
Definition step_ok {X Y} (P : Y -> Prop) (e : event) (r : dresult X Y) : Prop :=
  match r with
  | Panic => False
  | Err _ => True
  | Ok (o, _) =>
      back (o_ev o) e /\
      (is_end e = true -> o_ev o = DNone \/ (o_ev o = DContinue e /\ exists v, o_art o = AData v)) /\
      match o_art o with ANone => False | AData _ => True | ADes d => P d \/ doomed o end
  end.

(** The first answer; [group]: the type may refuse a tag. *)
Definition start_ok {X Y} (group : bool) (P : Y -> Prop) (e : event) (r : dresult X Y) : Prop :=
  match r with
  | Panic => False
  | Err _ => True
  | Ok (o, _) =>
      back (o_ev o) e /\
      if is_tag e then
        match o_art o with
        | ANone => group = true /\ o_ev o = DContinue e
        | AData _ => o_ev o = DNone
        | ADes d => o_ev o = DNone /\ P d
        end
      else o_art o = ANone
  end.

(** The deserializer can take [k] more events and can be finished at any time. *)
Fixpoint alive {X Y} (des : deser X Y) (k : nat) (d : Y) : Prop :=
  (forall h, quiet (de_finish des d h)) /\
  match k with
  | 0 => True
  | S k' => alive des k' d /\ forall h e, step_ok (alive des k') e (de_next des d h e)
  end.

Lemma step_mono {X Y} (P Q : Y -> Prop) e (r : dresult X Y) : (forall d, P d -> Q d) -> step_ok P e r -> step_ok Q e r.
Proof.
  intros I. destruct r as [[o h]| |]; auto. intros (B & N & A). split; [exact B|split; [exact N|]].
  destruct (o_art o); auto. destruct A; auto.
Qed.
Lemma start_mono {X Y} g (P Q : Y -> Prop) e (r : dresult X Y) : (forall d, P d -> Q d) -> start_ok g P e r -> start_ok g Q e r.
Proof.
  intros I. destruct r as [[o h]| |]; auto. intros (B & A). split; [exact B|]. destruct (is_tag e); auto.
  destruct (o_art o); auto. destruct A; auto.
Qed.
Lemma alive_finish {X Y} (des : deser X Y) k d h : alive des k d -> quiet (de_finish des d h).
Proof. destruct k; intros A; apply A. Qed.
Lemma alive_less {X Y} (des : deser X Y) k d : alive des (S k) d -> alive des k d.
Proof. intros A. apply A. Qed.
Lemma alive_step {X Y} (des : deser X Y) k d h e : alive des (S k) d -> step_ok (alive des k) e (de_next des d h e).
Proof. intros A. apply A. Qed.

(** A deserializer with an invariant. *)
Lemma alive_inv {X Y} (des : deser X Y) n (inv : nat -> Y -> Prop) :
  (forall k d h, inv k d -> quiet (de_finish des d h)) ->
  (forall k d, inv (S k) d -> inv k d) ->
  (forall k d h e, k < n -> inv (S k) d -> step_ok (inv k) e (de_next des d h e)) ->
  forall k, k <= n -> forall d, inv k d -> alive des k d.
Proof.
  intros F L N. induction k as [|k IH]; intros K d I; cbn [alive].
  - split; [intros h; eapply F; eauto|exact Logic.I].
  - split; [intros h; eapply F; eauto|]. split; [apply IH; [lia|auto]|].
    intros h e. apply (step_mono (inv k)); [|apply N; [lia|exact I]]. intros d'. apply IH. lia.
Qed.

(** The states a deserializer can come to. *)
Inductive reach {X Y} (des : deser X Y) : Y -> Prop :=
| reach_init h e o h' d : de_init des h e = Ok (o, h') -> o_art o = ADes d -> reach des d
| reach_next d0 h e o h' d : reach des d0 -> de_next des d0 h e = Ok (o, h') -> o_art o = ADes d -> reach des d.
Definition live {X Y} (des : deser X Y) (k : nat) (d : Y) : Prop := alive des k d /\ reach des d.
Lemma live_finish {X Y} (des : deser X Y) k d h : live des k d -> quiet (de_finish des d h).
Proof. intros [A _]. eapply alive_finish; eauto. Qed.
Lemma live_less {X Y} (des : deser X Y) k d : live des (S k) d -> live des k d.
Proof. intros [A R]. split; [apply alive_less; exact A|exact R]. Qed.
Lemma live_step {X Y} (des : deser X Y) k d h e : live des (S k) d -> step_ok (live des k) e (de_next des d h e).
Proof.
  intros [A R]. pose proof (alive_step _ _ _ h e A) as S. destruct (de_next des d h e) as [[o h']| |] eqn:E; auto.
  destruct S as (B & N & F). split; [exact B|split; [exact N|]]. destruct (o_art o) eqn:AO; auto.
  destruct F as [F|F]; [left|right; exact F]. split; [exact F|]. eapply reach_next; eauto.
Qed.
Lemma live_init {X Y} (des : deser X Y) g k h e : start_ok g (alive des k) e (de_init des h e) ->
  start_ok g (live des k) e (de_init des h e).
Proof.
  intros S. destruct (de_init des h e) as [[o h']| |] eqn:E; auto. destruct S as [B S]. split; [exact B|].
  destruct (is_tag e); auto. destruct (o_art o) eqn:AO; auto. destruct S as [EV A]. split; [exact EV|]. split; [exact A|].
  eapply reach_init; eauto.
Qed.

(** A value only comes with an end tag that is handed on. *)
Definition late {X Y} (des : deser X Y) : Prop :=
  (forall h e o h' v, de_init des h e = Ok (o, h') -> o_art o = AData v ->
     exists e', is_end e' = true /\ o_ev o = DContinue e') /\
  (forall d h e o h' v, reach des d -> de_next des d h e = Ok (o, h') -> o_art o = AData v ->
     exists e', is_end e' = true /\ o_ev o = DContinue e').

Lemma end_not_tag e : is_end e = true -> is_tag e = false.
Proof. destruct e; cbn; congruence. Qed.

Section Safe.
  Context {V D A : Type}.
  Implicit Types m : member V D.
  Variable from_start : dhelper -> bytes -> list attr -> outcome kind (A * dhelper).
  Hypothesis SQ : forall h n a, quiet (from_start h n a).

  Definition is_group m : bool := mkind_eqb (m_kind m) KindGroup.

  (** The element and its deserializer, for [n] events. *)
  Record member_safe (n : nat) m : Prop := MemberSafe {
    ms_occ : m_occ m <> ONone;
    ms_kind : m_kind m = KindElement /\ m_default m = None /\ m_any m = false \/ m_kind m = KindGroup;
    ms_default : forall df, m_default m = Some df -> forall h, quiet (df h);
    ms_init : forall k h e, k < n -> is_end e = false ->
      start_ok (is_group m) (alive (m_deser m) k) e (de_init (m_deser m) h e)
  }.

  (** ** Numbers of values: a default fills an array only if there are not too many *)
  Definition cap m : option nat :=
    match m_occ m, m_default m with OStatic n, Some _ => Some n | _, _ => None end.
  Definition within m (k : nat) : Prop := forall n, cap m = Some n -> k <= n.
  Definition single m : bool := match m_occ m with OSingle | OOptional => true | _ => false end.

  Lemma cap_static m n : cap m = Some n -> m_occ m = OStatic n /\ m_max m = Bounded n /\ 2 <= n.
  Proof.
    unfold cap. destruct (m_occ m) eqn:O; try discriminate. destruct (m_default m); [|discriminate]. intros [= ->].
    split; [reflexivity|]. unfold m_occ, from_occurs in O.
    destruct (m_min m) as [|[|a]] eqn:Mi, (m_max m) as [|[|[|b]]] eqn:Ma; cbn in O;
      try discriminate; try (destruct (m_opt m); discriminate).
    destruct (Nat.eqb_spec a b) as [->|]; [|discriminate]. injection O as <-. split; [reflexivity|lia].
  Qed.
  Lemma within_less m a b : a <= b -> within m b -> within m a.
  Proof. intros L W n C. specialize (W n C). lia. Qed.
  Lemma within_two m : within m 2.
  Proof. intros n C. apply cap_static in C. lia. Qed.
  Lemma cap_free m k : cap m = None -> within m k.
  Proof. intros C n E. congruence. Qed.
  Lemma element_free n m : member_safe n m -> m_kind m = KindElement -> cap m = None.
  Proof.
    intros S K. destruct (ms_kind _ _ S) as [(_ & N & _)|E]; [|congruence]. unfold cap. rewrite N.
    destruct (m_occ m); reflexivity.
  Qed.

  Lemma push_quiet (df : dhelper -> outcome kind (V * dhelper)) : (forall h, quiet (df h)) ->
    forall n h l, quiet (push_defaults df n h l).
  Proof.
    intros Q. induction n as [|n IH]; intros h l; cbn; [auto with safe|].
    pose proof (Q h) as Qh. destruct (df h) as [[t h']| |]; [apply IH|auto with safe|elim Qh; reflexivity].
  Qed.
  Lemma push_length (df : dhelper -> outcome kind (V * dhelper)) :
    forall n h l r h', push_defaults df n h l = Ok (r, h') -> length r = length l + n.
  Proof.
    induction n as [|n IH]; intros h l r h'; cbn.
    - intros [= <- _]. lia.
    - destruct (df h) as [[t h1]| |]; try discriminate. intros H. apply IH in H. rewrite app_length in H. cbn in H. lia.
  Qed.
  Lemma arr_quiet (df : dhelper -> outcome kind (V * dhelper)) n h l : (forall h, quiet (df h)) -> length l <= n ->
    quiet (finish_arr_default df n h l).
  Proof.
    intros Q L. unfold finish_arr_default, finish_vec_default. pose proof (push_quiet df Q (n - length l) h l) as P.
    destruct (push_defaults _ _ _ _) as [[r h']| |] eqn:E; [|auto with safe|elim P; reflexivity]. apply push_length in E.
    assert (length r = n) as -> by lia. rewrite Nat.eqb_refl. auto with safe.
  Qed.

  Lemma finish_field_quiet n m vals h : member_safe n m -> within m (length vals) -> quiet (finish_field m vals h).
  Proof.
    intros S W. pose proof (ms_default _ _ S) as Q. pose proof (ms_occ _ _ S) as NO. unfold finish_field.
    unfold within, cap in W. destruct (m_occ m) eqn:O.
    - congruence.
    - destruct (m_default m) as [df|] eqn:E.
      + apply quiet_bind; [|intros [v h'] _; auto with safe]. unfold finish_default. destruct (hd_error vals); auto with safe.
      + apply quiet_bind; [|intros v _; auto with safe]. unfold finish_element. destruct (hd_error vals); auto with safe.
    - auto with safe.
    - destruct (m_min m); [auto with safe|]. destruct (m_default m) as [df|].
      + apply push_quiet. auto.
      + apply quiet_bind; [|intros v _; auto with safe]. unfold finish_vec. destruct (_ && _)%bool; auto with safe.
    - destruct (m_default m) as [df|].
      + apply arr_quiet; auto.
      + apply quiet_bind; [|intros v _; auto with safe]. unfold finish_arr. destruct (Nat.eqb _ _); auto with safe.
  Qed.

  Lemma finish_fields_quiet n ms : Forall (member_safe n) ms -> forall fields h,
    (forall j m, nth_error ms j = Some m -> within m (length (field_at j fields))) ->
    quiet (finish_fields ms fields h).
  Proof.
    induction 1 as [|m ms M _ IH]; intros fields h W; cbn [finish_fields]; [auto with safe|].
    destruct fields as [|f fields]; [auto with safe|].
    apply quiet_bind; [eapply finish_field_quiet; eauto; exact (W 0 m eq_refl)|]. intros [f' h1] _.
    apply quiet_bind; [|intros [r h2] _; auto with safe]. apply IH. intros j m' N. exact (W (S j) m' N).
  Qed.

  Lemma store_quiet n m vals v : member_safe n m -> quiet (store m vals v).
  Proof.
    intros S. pose proof (ms_occ _ _ S). unfold store. destruct (m_occ m); try congruence; auto with safe;
      destruct vals; auto with safe.
  Qed.
  Lemma store_length m vals v vs : store m vals v = Ok vs -> length vs <= length vals + 1 /\ vs <> [].
  Proof.
    unfold store. destruct (m_occ m); try discriminate; try (destruct vals; [|discriminate]);
      intros [= <-]; rewrite ?app_length; cbn; (split; [lia|]); try discriminate; destruct vals; discriminate.
  Qed.

  (** ** Sequences *)
  Lemma set_same {X} i (x : X) l d : nth i (set_nth i x l) d = x \/ nth i (set_nth i x l) d = d.
  Proof.
    revert i. induction l as [|y l IH]; intros [|i]; cbn; auto.
  Qed.
  Lemma set_other {X} i j (x : X) l d : i <> j -> nth j (set_nth i x l) d = nth j l d.
  Proof.
    revert i j. induction l as [|y l IH]; intros [|i] [|j] N; cbn; auto; congruence.
  Qed.

  Section Sequence.
    Variables (elem : bool) (no_attrs : A) (allow_any mixed : bool) (ms : list (member V D)) (n : nat).
    Hypothesis MS : Forall (member_safe n) ms.
    Hypothesis NE : ms <> [].

    Lemma safe_at i m : nth_error ms i = Some m -> member_safe n m.
    Proof. intros N. rewrite Forall_forall in MS. apply MS. eapply nth_error_In; eauto. Qed.

    Definition base (fields : list (list V)) : Prop :=
      forall j m, nth_error ms j = Some m -> within m (length (field_at j fields)).
    Definition space (i c : nat) (fields : list (list V)) : Prop :=
      forall m, nth_error ms i = Some m -> within m (length (field_at i fields) + c).
    Definition nothing_after (i : nat) (fields : list (list V)) : Prop := forall j, i < j -> field_at j fields = [].

    Definition good (k : nat) (fields : list (list V)) (st : sstate (D:=D)) : Prop :=
      match st with
      | SInit => forall j, field_at j fields = []
      | SAt i o => i < length ms /\ space i 1 fields /\ nothing_after i fields /\
          match o with
          | Some d => forall m, nth_error ms i = Some m -> alive (m_deser m) k d
          | None => True
          end
      | SDone => True
      | SUnknown => False
      end.
    Definition rest (k : nat) (d : sdes (V:=V) (D:=D) (A:=A)) : Prop :=
      base (sd_fields d) /\ good k (sd_fields d) (sd_state d).

    Definition idle (k : nat) (fields : list (list V)) (st : sstate (D:=D)) (fb : option (sstate (D:=D))) : Prop :=
      base fields /\
      (st = SDone \/ exists i, st = SAt i None /\ i < length ms) /\
      match fb with
      | None => good k fields st
      | Some SInit => good k fields SInit
      | Some (SAt j (Some d)) => good k fields (SAt j (Some d)) /\
          forall i, st = SAt i None -> j < i \/ (j = i /\ space i 2 fields)
      | _ => False
      end.

    Lemma empty_space i fields : field_at i fields = [] -> space i 1 fields /\ space i 2 fields.
    Proof. intros E. split; intros m _; rewrite E; [apply (within_less m 1 2); [lia|]|]; apply within_two. Qed.
    Lemma next_good k i fields o : good k fields (SAt i o) -> good k fields (next_state ms i).
    Proof.
      intros (L & _ & N & _). unfold next_state. destruct (Nat.ltb_spec (S i) (length ms)); [|exact I].
      split; [auto|split; [|split; [|exact I]]].
      - apply empty_space. apply N. lia.
      - intros j J. apply N. lia.
    Qed.
    Lemma next_idle i : next_state (D:=D) ms i = SDone \/ exists i', next_state (D:=D) ms i = SAt i' None /\ i' < length ms.
    Proof. unfold next_state. destruct (Nat.ltb_spec (S i) (length ms)); eauto. Qed.

    Lemma keep_quiet i d fields k h : good k fields (SAt i (Some d)) -> base fields ->
      quiet (seq_finish_state ms fields (SAt i (Some d)) h) /\
      forall fields' h', seq_finish_state ms fields (SAt i (Some d)) h = Ok (fields', h') ->
        base fields' /\ (forall j, j <> i -> field_at j fields' = field_at j fields) /\
        length (field_at i fields') <= length (field_at i fields) + 1.
    Proof.
      intros (L & SP & N & AL) B. cbn. destruct (nth_error ms i) as [m|] eqn:M; [|apply nth_error_None in M; lia].
      pose proof (safe_at _ _ M) as SM. split.
      - apply quiet_bind; [eapply alive_finish; eauto|]. intros [v h1] _. unfold store_at. rewrite M.
        apply quiet_bind; [|intros; auto with safe]. apply quiet_bind; [eapply store_quiet; eauto|auto with safe].
      - intros fields' h' H. bind H. bind H. injection H as <- _. unfold store_at in E0. rewrite M in E0.
        bind E0. injection E0 as <-. apply store_length in E1. destruct E1 as [E1 _].
        assert (LE : length (field_at i (set_nth i a1 fields)) <= length (field_at i fields) + 1).
        { unfold field_at. destruct (set_same i a1 fields (@nil V)) as [-> | ->]; cbn; [exact E1|lia]. }
        assert (OT : forall j, j <> i -> field_at j (set_nth i a1 fields) = field_at j fields).
        { intros j J. apply set_other. auto. }
        split; [|split; [exact OT|exact LE]].
        intros j m' M'. destruct (Nat.eq_dec j i) as [->|J].
        + eapply within_less; [exact LE|]. apply SP. exact M'.
        + rewrite OT by exact J. apply B. exact M'.
    Qed.

    Lemma flush_ok k fields st fb h : idle k fields st fb ->
      quiet (seq_flush ms fields fb h) /\
      forall fields' h', seq_flush ms fields fb h = Ok (fields', h') -> base fields' /\ good k fields' st.
    Proof.
      intros (B & S & F). destruct fb as [[|j [d|]| |]|]; try (elim F; fail).
      - cbn. split; [auto with safe|]. intros fields' h' [= <- _]. split; [exact B|].
        destruct S as [-> |(i & -> & L)]; [exact I|]. cbn in F. split; [exact L|split; [|split; [|exact I]]].
        + apply empty_space. apply F.
        + intros j _. apply F.
      - destruct F as [G R]. destruct (keep_quiet _ _ _ _ h G B) as [Q K]. split; [exact Q|].
        intros fields' h' H. destruct (K _ _ H) as (B' & OT & LE). split; [exact B'|].
        destruct S as [-> |(i & -> & L)]; [exact I|]. destruct G as (_ & SP & N & _).
        destruct (R i eq_refl) as [J|[<- SP2]].
        + split; [exact L|split; [|split; [|exact I]]].
          * apply empty_space. rewrite OT by lia. apply N. exact J.
          * intros l Hl. rewrite OT by lia. apply N. lia.
        + split; [exact L|split; [|split; [|exact I]]].
          * intros m' M'. eapply within_less; [|apply SP2; exact M']. lia.
          * intros l Hl. rewrite OT by lia. apply N. lia.
      - cbn. split; [auto with safe|]. intros fields' h' [= <- _]. auto.
    Qed.

    Definition cost (st : sstate (D:=D)) : nat :=
      match st with SAt i _ => length ms - i + 1 | SDone => 1 | _ => length ms + 2 end.
    Lemma next_cost i : i < length ms -> cost (next_state ms i) < cost (SAt i None).
    Proof. intros L. unfold next_state. destruct (Nat.ltb_spec (S i) (length ms)); cbn; lia. Qed.

    (** What a handler may answer. *)
    Definition handled (k i : nat) (ev : devent) (art_none : bool) (e : event)
        (r : hout * hstate (V:=V) (D:=D)) : Prop :=
      match r with
      | (HContinue e' _, (fields, st, fb, _)) =>
          e' = e /\ (is_tag e || is_end e)%bool = true /\ ev = DContinue e /\ idle k fields st fb /\
          cost st <= cost (SAt i None) /\ (art_none = true -> cost st < cost (SAt i None))
      | (HBreak de x, (fields, st, fb, _)) =>
          back de e /\ (ev = DNone -> de = DNone) /\ (ev = DContinue e -> is_end e = false) /\
          ((base fields /\ good k fields (match fb with Some f => f | None => st end)) \/
           (x = false /\ exists e, de = DBreak e /\ is_tag e = true))
      end.

    Lemma from_handled k i ev any none e fields st fb h :
      back ev e -> idle k fields st fb ->
      cost st <= cost (SAt i None) -> (none = true -> cost st < cost (SAt i None)) ->
      handled k i ev none e (from_event ev any, (fields, st, fb, h)).
    Proof.
      intros B ID C C'. assert (G : base fields /\ good k fields (match fb with Some f => f | None => st end)).
      { destruct ID as (BA & _ & F). split; [exact BA|]. destruct fb as [[|j [d|]| |]|]; try (elim F; fail); auto. apply F. }
      unfold from_event. destruct ev as [|e'|e']; cbn [handled].
      - split; [exact B|]. split; [auto|]. split; [discriminate|]. auto.
      - split; [exact B|]. split; [discriminate|]. split; [discriminate|]. auto.
      - pose proof (B e' eq_refl) as ->. destruct (is_tag e || is_end e)%bool eqn:TE; cbn [handled].
        { split; [reflexivity|]. split; [reflexivity|]. split; [reflexivity|]. auto. }
        apply Bool.orb_false_iff in TE. split; [exact B|]. split; [discriminate|]. split; [intros _; apply TE|]. auto.
    Qed.

    Lemma seq_handle_ok k i m fields out fb h e :
      nth_error ms i = Some m -> idle k fields (SAt i None) fb ->
      back (o_ev out) e ->
      match o_art out with
      | ANone => o_ev out = DContinue e /\ is_tag e = true
      | AData _ => True
      | ADes d => alive (m_deser m) k d \/ doomed out
      end ->
      quiet (seq_handle ms i m fields out fb h) /\
      forall r, seq_handle ms i m fields out fb h = Ok r ->
        handled k i (o_ev out) (match o_art out with ANone => true | _ => false end) e r.
    Proof.
      intros M ID B ART. pose proof (safe_at _ _ M) as SM.
      assert (L : i < length ms) by (apply nth_error_Some; congruence).
      assert (NI : forall fields', good k fields' (SAt i None) -> base fields' -> idle k fields' (next_state ms i) None).
      { intros fields' G BA. split; [exact BA|split; [apply next_idle|eapply next_good; eauto]]. }
      unfold seq_handle. destruct (o_art out) as [|v|d] eqn:AR.
      - destruct ART as [EV TG]. rewrite EV in *. assert (NEN : is_end e = false) by (destruct e; cbn in *; congruence).
        assert (On : handled k i (DContinue e) true e (from_event (DContinue e) (o_any out), (fields, next_state ms i, fb, h))).
        { apply from_handled; [exact B| |pose proof (next_cost i L); lia|intros _; apply next_cost; exact L].
          destruct ID as (BA & _ & F). split; [exact BA|split; [apply next_idle|]].
          destruct fb as [[|j [d|]| |]|]; try (elim F; fail); auto.
          - destruct F as [G R]. split; [exact G|]. intros i' E. left. destruct (R i eq_refl); unfold next_state in E;
              destruct (Nat.ltb _ _); try discriminate E; injection E as <-; lia.
          - eapply next_good. exact F. }
        assert (Init : fb = Some SInit -> handled k i (DContinue e) true e
          (HBreak (DContinue e) (o_any out), (fields, SUnknown, fb, h))).
        { intros ->. cbn. split; [exact B|]. split; [discriminate|]. split; [intros _; exact NEN|]. left.
          destruct ID as (BA & _ & F). auto. }
        unfold seq_none. destruct (m_min m) as [|mn] eqn:MI.
        { split; [auto with safe|]. intros r [= <-]. exact On. }
        set (body := (let* (fields', h') := seq_flush ms fields fb h in
              if Nat.ltb (length (field_at i fields')) (S mn)
              then Ok (return_to_root (DContinue e) (o_any out), (fields', SUnknown, Some (SAt i None), h'))
              else Ok (from_event (DContinue e) (o_any out), (fields', next_state ms i, None, h')))
              : outcome kind (hout * hstate (V:=V) (D:=D))).
        assert (LST : fb <> Some SInit -> quiet body /\ forall r, body = Ok r -> handled k i (DContinue e) true e r).
        { intros _. destruct (flush_ok _ _ _ _ h ID) as [Q K]. split.
          - apply quiet_bind; [exact Q|]. intros [f1 h1] _. destruct (Nat.ltb _ _); auto with safe.
          - intros r H. unfold body in H. bind H. destruct (K _ _ E) as [BA G]. destruct (Nat.ltb _ _); injection H as <-.
            + cbn. split; [exact B|]. split; [discriminate|]. split; [intros _; exact NEN|]. left. auto.
            + apply (from_handled k i (DContinue e) (o_any out) true e a (next_state ms i) None b); [exact B|apply NI; auto|pose proof (next_cost i L); lia|intros _; apply next_cost; exact L]. }
        destruct (m_occ m) eqn:OC; destruct (m_default m) as [df|] eqn:DF;
          try (split; [auto with safe|]; intros r [= <-]; exact On).
        + elim (ms_occ _ _ SM OC).
        + assert (Root : fb <> Some SInit -> handled k i (DContinue e) true e
            (return_to_root (DContinue e) (o_any out), (fields, SUnknown, get_or_insert fb (SAt i None), h))).
          { intros NF. cbn. split; [exact B|]. split; [discriminate|]. split; [intros _; exact NEN|]. left.
            destruct ID as (BA & _ & F). split; [exact BA|]. destruct fb as [[|j [d|]| |]|]; try (elim F; fail); cbn.
            - congruence.
            - apply F.
            - exact F. }
          destruct fb as [[|j [d|]| |]|]; cbn [get_or_insert] in *;
            try (elim (proj2 (proj2 ID)); fail); (split; [auto with safe|]; intros r [= <-]; auto).
          all: apply Root; discriminate.
        + destruct fb as [[|j [d|]| |]|]; try (elim (proj2 (proj2 ID)); fail); try (apply LST; discriminate).
          split; [auto with safe|]. intros r [= <-]. auto.
        + destruct fb as [[|j [d|]| |]|]; try (elim (proj2 (proj2 ID)); fail); try (apply LST; discriminate).
          split; [auto with safe|]. intros r [= <-]. auto.
      - destruct (flush_ok _ _ _ _ h ID) as [Q K]. split.
        + apply quiet_bind; [exact Q|]. intros [f1 h1] _. unfold store_at. rewrite M.
          apply quiet_bind; [|intros; auto with safe]. apply quiet_bind; [eapply store_quiet; eauto|auto with safe].
        + intros r H. bind H. destruct (K _ _ E) as [BA G]. bind H. injection H as <-.
          unfold store_at in E0. rewrite M in E0. bind E0. injection E0 as <-. apply store_length in E1. destruct E1 as [E1 _].
          destruct G as (_ & SP & N & _).
          assert (LE : length (field_at i (set_nth i a1 a)) <= length (field_at i a) + 1).
          { unfold field_at. destruct (set_same i a1 a (@nil V)) as [-> | ->]; cbn; [exact E1|lia]. }
          assert (OT : forall j, j <> i -> field_at j (set_nth i a1 a) = field_at j a).
          { intros j J. apply set_other. auto. }
          assert (BA' : base (set_nth i a1 a)).
          { intros j m' M'. destruct (Nat.eq_dec j i) as [->|J].
            - eapply within_less; [exact LE|]. apply SP. exact M'.
            - rewrite OT by exact J. apply BA. exact M'. }
          set (fields' := set_nth i a1 a) in *.
          assert (NA : nothing_after i fields').
          { intros j J. rewrite OT by lia. apply N. exact J. }
          assert (NX : good k fields' (next_state ms i)).
          { unfold next_state. destruct (Nat.ltb_spec (S i) (length ms)); [|exact I].
            split; [auto|split; [|split; [|exact I]]]; [apply empty_space; apply NA; lia|].
            intros j J. apply NA. lia. }
          assert (ST : within m (length (field_at i fields') + 1) -> good k fields' (SAt i None)).
          { intros W. split; [exact L|split; [|split; [exact NA|exact I]]]. intros m' M'. replace m' with m by congruence. exact W. }
          assert (DS : good k fields' (data_state ms i m (length (field_at i fields'))) /\
            cost (data_state ms i m (length (field_at i fields'))) <= cost (SAt i None) /\
            (data_state ms i m (length (field_at i fields')) = SDone \/
             exists i', data_state ms i m (length (field_at i fields')) = SAt i' None /\ i' < length ms)).
          { pose proof (next_cost i L) as NC. pose proof (next_idle i) as NXI. unfold data_state.
            destruct (m_occ m) eqn:OC;
              try (split; [exact NX|split; [lia|exact NXI]]);
              (destruct (m_max m) as [|mx] eqn:MX;
               [split; [apply ST; intros c C; apply cap_static in C; destruct C as (_ & C & _); congruence|split; [lia|eauto]]|]);
              (destruct (Nat.ltb_spec (length (field_at i fields')) mx);
               [split; [apply ST; intros c C; apply cap_static in C; destruct C as (_ & C & _); rewrite MX in C; injection C as <-; lia|split; [lia|eauto]]
               |split; [exact NX|split; [lia|exact NXI]]]). }
          destruct DS as (DG & DC & DI).
          apply from_handled; [exact B| |exact DC|discriminate]. split; [exact BA'|split; [exact DI|exact DG]].
      - destruct (flush_ok _ _ _ _ h ID) as [Q K]. split.
        + apply quiet_bind; [exact Q|]. intros [f1 h1] _. auto with safe.
        + intros r H. bind H. destruct (K _ _ E) as [BA G]. injection H as <-.
          destruct G as (_ & SP & N & _).
          destruct ART as [AL|DO].
          * assert (GD : good k a (SAt i (Some d))).
            { split; [exact L|split; [exact SP|split; [exact N|]]]. intros m' M'. replace m' with m by congruence. exact AL. }
            assert (DS : cost (des_state ms i m (length (field_at i a))) <= cost (SAt i None) /\
              (des_state ms i m (length (field_at i a)) = SDone \/
               exists i', des_state ms i m (length (field_at i a)) = SAt i' None /\ i' < length ms) /\
              forall i', des_state ms i m (length (field_at i a)) = SAt i' None -> i < i' \/ (i = i' /\ space i' 2 a)).
            { pose proof (next_cost i L) as NC. pose proof (next_idle i) as NXI.
              assert (NXT : forall i', next_state (D:=D) ms i = SAt i' None -> i < i' \/ (i = i' /\ space i' 2 a)).
              { intros i' E'. unfold next_state in E'. destruct (Nat.ltb _ _); [|discriminate]. injection E' as <-. lia. }
              assert (SM2 : within m (length (field_at i a) + 2) -> forall i', SAt i None = SAt (D:=D) i' None -> i < i' \/ (i = i' /\ space i' 2 a)).
              { intros W i' [= <-]. right. split; [reflexivity|]. intros m' M'. replace m' with m by congruence. exact W. }
              unfold des_state.
              destruct (m_occ m) eqn:OC;
                try (split; [lia|split; [exact NXI|exact NXT]]);
                (destruct (m_max m) as [|mx] eqn:MX;
                 [split; [lia|split; [eauto|apply SM2; intros c C; apply cap_static in C; destruct C as (_ & C & _); congruence]]|]);
                (destruct (Nat.ltb_spec (length (field_at i a)) (mx - 1));
                 [split; [lia|split; [eauto|apply SM2; intros c C; apply cap_static in C; destruct C as (_ & C & _); rewrite MX in C; injection C as <-; lia]]
                 |split; [lia|split; [exact NXI|exact NXT]]]). }
            destruct DS as (DC & DI & DR).
            apply from_handled; [exact B| |exact DC|discriminate]. split; [exact BA|split; [exact DI|split; [exact GD|exact DR]]].
          * destruct DO as (AN & e1 & EV & TG). rewrite EV in *. cbn. split; [exact B|].
            split; [discriminate|]. split; [discriminate|]. right. eauto.
    Qed.

    Lemma no_any : has_any ms = false.
    Proof.
      unfold has_any. destruct (existsb _ ms) eqn:E; [|reflexivity]. apply existsb_exists in E.
      destruct E as (m & IN & E). rewrite Forall_forall in MS. destruct (ms_kind _ _ (MS m IN)) as [(K & _)|K];
        rewrite K in E; discriminate E.
    Qed.

    Lemma end_rest k (a : A) fields st fb h ev any e :
      base fields -> good k fields (match fb with Some f => f | None => st end) -> back ev e ->
      (is_end e = true -> ev = DNone) ->
      step_ok (rest k) e (seq_end (V:=V) a (fields, st, fb, h) ev any).
    Proof. intros B G BK EN. cbn. split; [exact BK|split; [auto|left; split; [exact B|exact G]]]. Qed.

    Lemma seq_start_ok k m h e : member_safe n m -> k < n -> is_tag e = true ->
      match seq_start allow_any m h e with
      | Panic => False
      | Err _ => True
      | Ok (o, _) => back (o_ev o) e /\
          match o_art o with
          | ANone => o_ev o = DContinue e
          | AData _ => o_ev o = DNone
          | ADes d => o_ev o = DNone /\ alive (m_deser m) k d
          end
      end.
    Proof.
      intros SM K TG. assert (EN : is_end e = false) by (destruct e; cbn in *; congruence).
      pose proof (ms_init _ _ SM k h e K EN) as I0.
      assert (I1 : match de_init (m_deser m) h e with
        | Panic => False | Err _ => True
        | Ok (o, _) => back (o_ev o) e /\
          match o_art o with
          | ANone => o_ev o = DContinue e
          | AData _ => o_ev o = DNone
          | ADes d => o_ev o = DNone /\ alive (m_deser m) k d
          end end).
      { unfold start_ok in I0. destruct (de_init (m_deser m) h e) as [[o h']| |]; auto. rewrite TG in I0.
        destruct I0 as [B I0]. split; [exact B|]. destruct (o_art o); auto. apply I0. }
      unfold seq_start. destruct (m_kind m); try exact I1. unfold init_start_tag.
      destruct (check_tag _ _ _ _); [exact I1|]. cbn. split; [apply back_continue|reflexivity].
    Qed.

    Lemma idle_loop_ok k (a : A) : k < n -> forall fuel fields st fb h e any retry afb,
      idle k fields st fb -> cost st <= fuel ->
      step_ok (rest k) e (seq_loop elem allow_any mixed ms fuel a (fields, st, fb, h) e any retry afb).
    Proof.
      intros K. induction fuel as [|fuel IH]; intros fields st fb h e any retry afb ID C.
      { destruct ID as (_ & [-> |(i & -> & L)] & _); cbn in C; lia. }
      assert (G : base fields /\ good k fields (match fb with Some f => f | None => st end)).
      { destruct ID as (BA & _ & F). split; [exact BA|]. destruct fb as [[|j [d|]| |]|]; try (elim F; fail); auto. apply F. }
      assert (EN : is_end e = true -> step_ok (rest k) e
        (let* (fields1, h1) := seq_flush ms fields fb h in
         let* (vals, h2) := finish_fields ms fields1 h1 in
         Ok (DOut (AData (a, vals)) (if elem then DNone else DContinue e) false, h2))).
      { intros EN. destruct (flush_ok _ _ _ _ h ID) as [Q F]. destruct (seq_flush ms fields fb h) as [[f1 h1]| |] eqn:E;
          [|exact I|elim Q; reflexivity]. destruct (F _ _ eq_refl) as [BA _]. cbn [obind].
        pose proof (finish_fields_quiet n ms MS f1 h1 BA) as QF.
        destruct (finish_fields ms f1 h1) as [[vals h2]| |]; [|exact I|elim QF; reflexivity].
        cbn. split; [destruct elem; auto with frame|]. split; [|exact I]. intros _. destruct elem; eauto. }
      cbn [seq_loop]. destruct ID as (BA & [-> |(i & -> & L)] & F) eqn:IE; clear IE.
      - destruct (is_end e) eqn:EE; [apply EN; reflexivity|]. rewrite no_any.
        apply end_rest; [apply G|apply G|apply back_continue|congruence].
      - destruct (is_end e) eqn:EE; [apply EN; reflexivity|].
        destruct (nth_error ms i) as [m|] eqn:M; [|apply nth_error_None in M; lia]. pose proof (safe_at _ _ M) as SM.
        assert (KD : mkind_eqb (m_kind m) KindText = false /\ mkind_eqb (m_kind m) KindAny = false).
        { destruct (ms_kind _ _ SM) as [(-> & _)| ->]; split; reflexivity. }
        destruct KD as [-> ->]. cbn [orb andb]. destruct (is_tag e) eqn:TG.
        + pose proof (seq_start_ok k m h e SM K TG) as I1.
          destruct (seq_start allow_any m h e) as [[o h1]| |]; [|exact I|elim I1]. cbn [obind].
          destruct I1 as [B I1].
          destruct (seq_handle_ok k i m fields o fb h1 e M (conj BA (conj (or_intror (ex_intro _ i (conj eq_refl L))) F)) B) as [Q H].
          { destruct (o_art o); auto. destruct I1. auto. }
          destruct (seq_handle ms i m fields o fb h1) as [[ho [[[f1 st1] fb1] h2]]| |]; [|exact I|elim Q; reflexivity].
          cbn [obind]. specialize (H _ eq_refl). destruct ho as [e' x|de x]; cbn in H.
          * destruct H as (-> & _ & EV & ID' & C1 & C2). apply IH; [exact ID'|].
            destruct (o_art o); [specialize (C2 eq_refl); cbn in C2, C; cbn; lia|congruence|destruct I1; congruence].
          * destruct H as (BK & _ & _ & [[B1 G1]|(-> & e1 & -> & T1)]).
            -- apply end_rest; [exact B1|exact G1|exact BK|congruence].
            -- cbn. split; [exact BK|split; [congruence|right; split; [reflexivity|exists e1; auto]]].
        + destruct (mixed && is_chars e)%bool; apply end_rest; try apply G; auto with frame; congruence.
    Qed.

    Lemma seq_next_ok k d h e : k < n -> rest (S k) d -> step_ok (rest k) e (seq_next elem allow_any mixed ms d h e).
    Proof.
      intros K [BA G]. unfold seq_next. destruct d as [a fields st]. cbn [sd_attrs sd_fields sd_state] in *.
      assert (FU : length ms + 3 <= seq_fuel ms) by (unfold seq_fuel; lia). revert FU. generalize (seq_fuel ms) as fuel.
      intros fuel FU.
      assert (LEN : 0 < length ms) by (destruct ms; [congruence|cbn; lia]).
      destruct st as [|i [d|]| |].
      - destruct fuel as [|fuel]; [lia|]. cbn [seq_loop]. destruct (is_end e) eqn:EE.
        + cbn [seq_flush obind]. pose proof (finish_fields_quiet n ms MS fields h BA) as QF.
          destruct (finish_fields ms fields h) as [[vals h2]| |]; [|exact I|elim QF; reflexivity].
          cbn. split; [destruct elem; auto with frame|]. split; [|exact I]. intros _. destruct elem; eauto.
        + apply idle_loop_ok; [exact K| |cbn; lia]. split; [exact BA|]. split; [right; exists 0; auto|]. exact G.
      - destruct fuel as [|fuel]; [lia|]. cbn [seq_loop]. destruct G as (L & SP & NA & AL).
        destruct (nth_error ms i) as [m|] eqn:M; [|apply nth_error_None in M; lia].
        pose proof (alive_step _ _ _ h e (AL m eq_refl)) as ST.
        destruct (de_next (m_deser m) d h e) as [[o h1]| |]; [|exact I|elim ST]. cbn [obind].
        destruct ST as (B & EN & ART).
        destruct (seq_handle_ok k i m fields o None h1 e M) as [Q H]; auto.
        { split; [exact BA|]. split; [right; eauto|]. split; [exact L|split; [exact SP|split; [exact NA|exact I]]]. }
        { destruct (o_art o); auto. elim ART. }
        destruct (seq_handle ms i m fields o None h1) as [[ho [[[f1 st1] fb1] h2]]| |]; [|exact I|elim Q; reflexivity].
        cbn [obind]. specialize (H _ eq_refl). destruct ho as [e' x|de x]; cbn in H.
        + destruct H as (-> & _ & EV & ID' & C1 & C2). apply idle_loop_ok; [exact K|exact ID'|]. cbn in C1; cbn; lia.
        + destruct H as (BK & DN & DN' & G1).
          assert (ED : is_end e = true -> de = DNone).
          { intros EE. destruct (EN EE) as [EV|[EV _]]; [auto|]. specialize (DN' EV). congruence. }
          destruct G1 as [[B1 G1]|(-> & e1 & -> & T1)].
          * apply end_rest; auto.
          * cbn. split; [exact BK|split; [|right; split; [reflexivity|exists e1; auto]]]. intros EE. discriminate (ED EE).
      - destruct fuel as [|fuel]; [lia|]. apply idle_loop_ok; [exact K| |cbn; lia].
        split; [exact BA|]. split; [right; exists i; split; [reflexivity|apply G]|]. destruct G as (L & SP & NA & _). repeat split; auto.
      - apply idle_loop_ok; [exact K| |cbn; lia]. split; [exact BA|]. split; [auto|exact I].
      - elim G.
    Qed.

    Notation des := (seq_deser from_start elem no_attrs allow_any mixed ms).

    Lemma rest_finish k d h : rest k d -> quiet (seq_finish ms d h).
    Proof.
      intros [B G]. unfold seq_finish. destruct d as [a fields st]. cbn [sd_attrs sd_fields sd_state] in *.
      assert (F : quiet (seq_finish_state ms fields st h) /\
        forall f1 h1, seq_finish_state ms fields st h = Ok (f1, h1) -> base f1).
      { destruct st as [|i [d|]| |]; try (split; [apply quiet_ok|intros f1 h1 [= <- _]; exact B]).
        destruct (keep_quiet _ _ _ _ h G B) as [Q K]. split; [exact Q|]. intros f1 h1 H. apply (K f1 h1 H). }
      destruct F as [Q K]. apply quiet_bind; [exact Q|]. intros [f1 h1] E.
      apply quiet_bind; [|intros [v h2] _; apply quiet_ok]. eapply finish_fields_quiet; [exact MS|]. exact (K _ _ E).
    Qed.
    Lemma rest_less k d : rest (S k) d -> rest k d.
    Proof.
      intros [B G]. split; [exact B|]. destruct (sd_state d) as [|i [o|]| |]; auto.
      destruct G as (L & SP & N & AL). repeat split; auto. intros m M. apply alive_less. auto.
    Qed.
    Lemma seq_alive k d : k <= n -> rest k d -> alive des k d.
    Proof.
      intros K. revert d. revert k K. apply alive_inv; cbn.
      - intros k d h. apply rest_finish.
      - apply rest_less.
      - intros k d h e. apply seq_next_ok.
    Qed.

    Lemma new_empty j : field_at j (no_fields ms) = [].
    Proof.
      unfold field_at, no_fields. generalize ms as l. intros l. revert j.
      induction l as [|m l IH]; intros [|j]; cbn; auto.
    Qed.
    Lemma new_rest k a : rest k (seq_new ms a).
    Proof.
      split; [|exact new_empty]. intros j m M. cbn [seq_new sd_fields]. rewrite new_empty. apply (within_less m _ 2); [cbn; lia|apply within_two].
    Qed.

    Lemma seq_element_start k h e : k <= n -> elem = true -> start_ok false (alive des k) e (de_init des h e).
    Proof.
      intros K EL. assert (IE : de_init des h e = seq_init_element from_start ms h e) by (cbn [de_init cdes_deser enum_deser seq_deser all_deser]; rewrite EL; reflexivity).
      rewrite IE. clear IE. unfold seq_init_element. destruct e; try (cbn; auto with frame; fail).
      - pose proof (SQ h name attrs). destruct (from_start h name attrs) as [[a h']| |]; [|exact I|congruence].
        cbn. split; [auto with frame|]. split; [reflexivity|]. apply seq_alive; [exact K|apply new_rest].
      - pose proof (SQ h name attrs). destruct (from_start h name attrs) as [[a h']| |]; [|exact I|congruence].
        cbn [obind]. pose proof (rest_finish 0 _ h' (new_rest 0 a)) as Q.
        destruct (seq_finish ms (seq_new ms a) h') as [[v h'']| |]; [|exact I|congruence]. cbn. auto with frame.
    Qed.

    (** From the start, nothing is taken of a tag that is refused. *)
    Lemma init_loop k (a : A) : k < n -> forall fuel fields st h e any retry afb,
      idle k fields st (Some SInit) -> is_end e = false ->
      match seq_loop elem allow_any mixed ms fuel a (fields, st, Some SInit, h) e any retry afb with
      | Ok (o, _) => exists d, o_art o = ADes d /\
          if is_tag e then (sd_state d = SInit /\ o_ev o = DContinue e) \/ (sd_state d <> SInit /\ o_ev o = DNone)
          else sd_state d = SInit
      | _ => True
      end.
    Proof.
      intros K. induction fuel as [|fuel IH]; intros fields st h e any retry afb ID EN; [exact I|].
      cbn [seq_loop]. destruct ID as (BA & [-> |(i & -> & L)] & F) eqn:IE; clear IE; rewrite EN.
      - rewrite no_any. cbn. eexists. split; [reflexivity|]. cbn. destruct (is_tag e); auto.
      - destruct (nth_error ms i) as [m|] eqn:M; [|exact I]. pose proof (safe_at _ _ M) as SM.
        assert (KD : mkind_eqb (m_kind m) KindText = false /\ mkind_eqb (m_kind m) KindAny = false).
        { destruct (ms_kind _ _ SM) as [(-> & _)| ->]; split; reflexivity. }
        destruct KD as [-> ->]. cbn [orb andb]. destruct (is_tag e) eqn:TG.
        + pose proof (seq_start_ok k m h e SM K TG) as I1.
          destruct (seq_start allow_any m h e) as [[o h1]| |]; [|exact I|exact I]. cbn [obind].
          destruct I1 as [B I1].
          assert (Rec : forall x, match seq_loop elem allow_any mixed ms fuel a (fields, next_state ms i, Some SInit, h1) e x retry afb with
            | Ok (o, _) => exists d, o_art o = ADes d /\
                ((sd_state d = SInit /\ o_ev o = DContinue e) \/ (sd_state d <> SInit /\ o_ev o = DNone))
            | _ => True end).
          { intros x. specialize (IH fields (next_state ms i) h1 e x retry afb). rewrite TG in IH. apply IH; [|exact EN].
            split; [exact BA|split; [apply next_idle|exact F]]. }
          assert (Stop : match seq_end a (fields, SUnknown, Some SInit, h1) (DContinue e) (o_any o) with
            | Ok (o, _) => exists d : sdes (V:=V) (D:=D) (A:=A), o_art o = ADes d /\
                ((sd_state d = SInit /\ o_ev o = DContinue e) \/ (sd_state d <> SInit /\ o_ev o = DNone))
            | _ => True end).
          { cbn. eexists. split; [reflexivity|]. auto. }
          unfold seq_handle. destruct (o_art o) as [|v|d].
          * rewrite I1. unfold seq_none. cbn [from_event]. rewrite TG. cbn [orb].
            destruct (m_min m) as [|mn]; [apply Rec|].
            destruct (m_occ m), (m_default m); cbn [get_or_insert obind]; first [apply Rec|exact Stop].
          * rewrite I1. cbn [seq_flush seq_finish_state obind]. unfold store_at. rewrite M.
            destruct (store m (field_at i fields) v) as [f| |]; [|exact I|exact I]. cbn [obind from_event seq_end].
            eexists. split; [reflexivity|]. right. split; [|reflexivity]. cbn. unfold data_state, next_state.
            destruct (m_occ m); destruct (m_max m); try destruct (Nat.ltb _ _); try destruct (Nat.ltb _ _); discriminate.
          * destruct I1 as [-> AL]. cbn. eexists. split; [reflexivity|]. right. split; [|reflexivity]. discriminate.
        + destruct (mixed && is_chars e)%bool; cbn; eexists; (split; [reflexivity|]); reflexivity.
    Qed.

    Lemma seq_group_start k h e : k < n -> is_end e = false -> elem = false ->
      start_ok true (alive des k) e (de_init des h e).
    Proof.
      intros K EN EL.
      assert (IE : de_init des h e = seq_init_group elem no_attrs allow_any mixed ms h e) by (cbn [de_init cdes_deser enum_deser seq_deser all_deser]; rewrite EL; reflexivity).
      rewrite IE. clear IE. unfold seq_init_group.
      pose proof (seq_next_ok k _ h e K (new_rest (S k) no_attrs)) as N.
      assert (IL : match seq_next elem allow_any mixed ms (seq_new ms no_attrs) h e with
        | Ok (o, _) => exists d, o_art o = ADes d /\
          if is_tag e then (sd_state d = SInit /\ o_ev o = DContinue e) \/ (sd_state d <> SInit /\ o_ev o = DNone)
          else sd_state d = SInit
        | _ => True end).
      { unfold seq_next. assert (FU : 0 < seq_fuel ms) by (unfold seq_fuel; lia).
        destruct (seq_fuel ms) as [|fuel]; [lia|]. cbn [seq_new seq_loop sd_fields sd_state sd_attrs]. rewrite EN.
        apply (init_loop k); [exact K| |exact EN]. destruct (new_rest k no_attrs) as [B G].
        split; [exact B|]. split; [|exact G]. right. exists 0. split; [reflexivity|]. destruct ms; [congruence|cbn; lia]. }
      destruct (seq_next elem allow_any mixed ms (seq_new ms no_attrs) h e) as [[o h']| |]; [|exact I|elim N].
      destruct N as (B & _ & R). destruct IL as (d & AD & IL). cbn [obind start_ok o_art o_ev o_any]. rewrite AD in *. split; [exact B|].
      destruct (is_tag e).
      - destruct IL as [[-> EV]|[NI EV]]; [auto|].
        assert (AL : alive des k d).
        { apply seq_alive; [lia|]. destruct R as [R|(_ & e1 & E1 & _)]; [exact R|congruence]. }
        destruct (sd_state d); auto. congruence.
      - rewrite IL. reflexivity.
    Qed.

    Lemma seq_late : elem = false -> late des.
    Proof.
      intros EL.
      assert (LO : forall fuel (a : A) hs e any retry afb o h' v,
        seq_loop elem allow_any mixed ms fuel a hs e any retry afb = Ok (o, h') -> o_art o = AData v ->
        exists e', is_end e' = true /\ o_ev o = DContinue e').
      { induction fuel as [|fuel IH]; intros a [[[fields st] fb] h] e any retry afb o h' v H AD; [discriminate|].
        cbn [seq_loop] in H.
        assert (Run : forall i m (r : dresult V D), (let* (out, h1) := r in
            let* (ho, hs') := seq_handle ms i m fields out fb h1 in
            match ho with
            | HContinue e' x => seq_loop elem allow_any mixed ms fuel a hs' e' (any || x) retry afb
            | HBreak de x => seq_end a hs' de x
            end) = Ok (o, h') -> exists e', is_end e' = true /\ o_ev o = DContinue e').
        { intros i m r H'. bind H'. bind H'. destruct a1 as [e1 x|de x]; [eapply IH; eauto|].
          destruct b0 as [[[f2 st2] fb2] h2]. cbn in H'. injection H' as <- _. discriminate AD. }
        assert (SE : forall hs de x, seq_end a hs de x = Ok (o, h') -> exists e', is_end e' = true /\ o_ev o = DContinue e').
        { intros [[[f2 st2] fb2] h2] de x H'. cbn in H'. injection H' as <- _. discriminate AD. }
        assert (Rest : forall r, (if is_end e then
          let* (fields1, h1) := seq_flush ms fields fb h in
          let* (vals, h2) := finish_fields ms fields1 h1 in
          Ok (DOut (AData (a, vals)) (if elem then DNone else DContinue e) false, h2)
          else r) = Ok (o, h') -> (r = Ok (o, h') -> exists e', is_end e' = true /\ o_ev o = DContinue e') ->
          exists e', is_end e' = true /\ o_ev o = DContinue e').
        { intros r H' F. destruct (is_end e) eqn:EE; [|auto]. bind H'. bind H'. injection H' as <- _.
          rewrite EL. eauto. }
        destruct st as [|i [d|]| |].
        - apply Rest in H; [exact H|]. intros H'. eapply IH; eauto.
        - destruct (nth_error ms i); [|discriminate]. eapply Run; eauto.
        - apply Rest in H; [exact H|]. intros H'. destruct (nth_error ms i) as [m|]; [|discriminate].
          destruct (_ || _)%bool.
          + destruct (_ && _)%bool; [eapply IH; eauto|]. eapply Run; eauto.
          + destruct (_ && _)%bool; eapply SE; eauto.
        - apply Rest in H; [exact H|]. intros H'. destruct (if has_any ms then afb else None); [eapply IH; eauto|eapply SE; eauto].
        - discriminate. }
      split.
      - cbn. rewrite EL. unfold seq_init_group. intros h e o h' v H AD. bind H. injection H as <- <-.
        unfold seq_next in E. rewrite EL in LO. cbn [o_art] in AD. destruct (o_art a) as [|w|d] eqn:AA.
        + discriminate.
        + exact (LO _ _ _ _ _ _ _ _ _ _ E AA).
        + destruct (sd_state d); discriminate.
      - cbn. intros d h e o h' v _. apply LO.
    Qed.
  End Sequence.

  (** ** Choices *)
  Section Choice.
    Variables (elem allow_any mixed defaultable : bool) (ms : list (member V D)) (n : nat).
    Hypothesis MS : Forall (member_safe n) ms.
    Hypothesis DQ : defaultable = true -> ms <> [] /\ forall m l, ms = m :: l -> forall h, quiet (variant_default m h).
    Hypothesis LT : elem = true -> forall m, In m ms -> m_kind m = KindGroup ->
      late (m_deser m) \/ (single m = false /\ cap m = None).

    Notation est := (estate (V:=V) (D:=D)).

    Definition erest (k : nat) (st : est) : Prop :=
      match st with
      | EInit => True
      | EAt i vals None cur => exists m, nth_error ms i = Some m /\ within m (length vals + 1) /\
          match cur with
          | Some d => live (m_deser m) k d
          | None => vals <> [] /\ (single m = true -> m_kind m = KindElement)
          end
      | _ => False
      end.

    Lemma ekeep_ok m vals (cur : option D) h k : member_safe n m ->
      match cur with Some d => live (m_deser m) k d | None => True end ->
      quiet (match cur with
        | Some d => let* (v, h1) := de_finish (m_deser m) d h in let* vs := store m vals v in Ok (vs, h1)
        | None => Ok (vals, h)
        end) /\
      forall vs h', match cur with
        | Some d => let* (v, h1) := de_finish (m_deser m) d h in let* vs := store m vals v in Ok (vs, h1)
        | None => Ok (vals, h)
        end = Ok (vs, h') -> length vs <= length vals + (if is_some cur then 1 else 0).
    Proof.
      intros SM AL. destruct cur as [d|]; cbn [is_some].
      - split.
        + apply quiet_bind; [eapply live_finish; eauto|]. intros [v h1] _. apply quiet_bind; [eapply store_quiet; eauto|auto with safe].
        + intros vs h' H. bind H. bind H. injection H as <- _. apply store_length in E0. lia.
      - split; [auto with safe|]. intros vs h' [= <- _]. lia.
    Qed.

    Lemma efinish_at i m vals cur h k : nth_error ms i = Some m ->
      match cur with Some d => live (m_deser m) k d | None => True end ->
      within m (length vals + (if is_some cur then 1 else 0)) ->
      quiet (enum_finish_state defaultable ms (EAt i vals None cur) h).
    Proof.
      intros M AL W. pose proof (safe_at ms n MS _ _ M) as SM. cbn. rewrite M.
      destruct (ekeep_ok m vals cur h k SM AL) as [Q K]. apply quiet_bind; [exact Q|]. intros [v1 h1] E.
      apply quiet_bind; [|intros [v2 h2] _; auto with safe]. eapply finish_field_quiet; [exact SM|].
      eapply within_less; [exact (K _ _ E)|exact W].
    Qed.
    Lemma efinish_init h : quiet (enum_finish_state defaultable ms EInit h).
    Proof.
      cbn. destruct defaultable; [|auto with safe]. destruct (DQ eq_refl) as [NE Q].
      destruct ms as [|m l]; [congruence|]. eapply Q. reflexivity.
    Qed.
    Lemma efinish_rest k st h : erest k st -> quiet (enum_finish_state defaultable ms st h).
    Proof.
      destruct st as [|i vals [fb|] cur|v|]; intros R; try (elim R; fail).
      - apply efinish_init.
      - destruct R as (m & M & W & C). eapply efinish_at; [exact M| |].
        + destruct cur; [exact C|exact I].
        + eapply within_less; [|exact W]. destruct cur; cbn; lia.
    Qed.

    (** Ready for another value. *)
    Definition open_at (k i : nat) m (vals : list V) (fb : option D) : Prop :=
      match fb with
      | Some d => single m = false /\ live (m_deser m) k d /\ within m (length vals + 2)
      | None => vals <> [] /\ within m (length vals + 1) /\ (single m = true -> m_kind m = KindElement)
      end.

    Definition ehandled (k i : nat) m (e : event) (ev : devent) (any : bool) (r : hout * est * dhelper) : Prop :=
      match r with
      | (HContinue e' _, st, _) =>
          e' = e /\ ev = DContinue e /\
          ((is_tag e = true /\ exists vals fb, st = EAt i vals fb None /\ open_at k i m vals fb) \/
           (is_end e = true /\ exists vals, st = EAt i vals None None /\ within m (length vals)))
      | (HBreak de x, st, _) =>
          de = ev /\ x = any /\
          ((exists t, st = EFin t) \/
           (st <> EInit /\ (is_end e = true -> ev = DNone) /\
            (forall t, st <> EFin t) /\
            (erest k st \/ (any = false /\ exists e, ev = DBreak e /\ is_tag e = true))))
      end.

    Lemma ehandle_ok k i m vals fb out h e :
      nth_error ms i = Some m -> back (o_ev out) e ->
      (is_end e = true -> o_ev out = DNone \/ (o_ev out = DContinue e /\ exists v, o_art out = AData v)) ->
      match fb with
      | Some d => live (m_deser m) k d /\ within m (length vals + 2)
      | None => within m (length vals + 1)
      end ->
      match o_art out with ANone => False | AData _ => True | ADes d => live (m_deser m) k d \/ doomed out end ->
      (late (m_deser m) -> forall v, o_art out = AData v -> o_ev out = DContinue e /\ is_end e = true) ->
      quiet (enum_handle elem defaultable ms i m vals fb out h) /\
      forall r, enum_handle elem defaultable ms i m vals fb out h = Ok r -> ehandled k i m e (o_ev out) (o_any out) r.
    Proof.
      intros M B EN FB ART LA. pose proof (safe_at ms n MS _ _ M) as SM.
      assert (IN : In m ms) by (eapply nth_error_In; eauto).
      assert (AL : match fb with Some d => live (m_deser m) k d | None => True end).
      { destruct fb; [apply FB|exact I]. }
      assert (WF : within m (length vals + (if is_some fb then 1 else 0) + 1)).
      { destruct fb; cbn; [eapply within_less; [|apply FB]; lia|eapply within_less; [|exact FB]; lia]. }
      destruct (ekeep_ok m vals fb h k SM AL) as [Q K].
      unfold enum_handle. destruct (o_art out) as [|v|d] eqn:AR; [elim ART| |].
      - assert (Body : forall vals1 h1, length vals1 <= length vals + (if is_some fb then 1 else 0) ->
          let body := let* vals2 := store m vals1 v in
            let stay := Ok (from_event (o_ev out) (o_any out), EAt i vals2 None None, h1) in
            let leave := let* (t, h2) := enum_finish_state defaultable ms (EAt i vals2 None None) h1 in
              Ok (HBreak (o_ev out) (o_any out), EFin t, h2) in
            if elem then stay
            else match m_occ m with
                 | OSingle | OOptional => leave
                 | _ => match m_max m with
                        | Bounded max => if Nat.ltb (length vals2) max then stay else leave
                        | Unbounded => stay
                        end
                 end : outcome kind (hout * est * dhelper) in
          quiet body /\ forall r, body = Ok r -> ehandled k i m e (o_ev out) (o_any out) r).
        { intros vals1 h1 LE. cbv zeta. pose proof (store_quiet n m vals1 v SM) as SQ'.
          destruct (store m vals1 v) as [vals2| |] eqn:ST; [|split; [apply quiet_err|discriminate]|congruence].
          apply store_length in ST. destruct ST as [SL SN]. cbn [obind].
          assert (W2 : within m (length vals2)). { eapply within_less; [|exact WF]. lia. }
          assert (Leave : quiet (let* (t, h2) := enum_finish_state defaultable ms (EAt i vals2 None None) h1 in
              Ok (HBreak (o_ev out) (o_any out), @EFin V D t, h2)) /\
            forall r, (let* (t, h2) := enum_finish_state defaultable ms (EAt i vals2 None None) h1 in
              Ok (HBreak (o_ev out) (o_any out), EFin t, h2)) = Ok r -> ehandled k i m e (o_ev out) (o_any out) r).
          { split.
            - apply quiet_bind; [|intros [t h2] _; auto with safe]. apply (efinish_at i m vals2 None h1 k M I).
              cbn. eapply within_less; [|exact W2]. lia.
            - intros r H. bind H. injection H as <-. cbn. eauto 10. }
          assert (Stay : (is_end e = false -> within m (length vals2 + 1) /\ (single m = true -> m_kind m = KindElement)) ->
            (is_end e = true -> o_ev out = DNone -> within m (length vals2 + 1) /\ (single m = true -> m_kind m = KindElement)) ->
            forall r, Ok (from_event (o_ev out) (o_any out), EAt i vals2 None None, h1) = @Ok kind _ r ->
              ehandled k i m e (o_ev out) (o_any out) r).
          { intros P1 P2 r [= <-]. unfold from_event. destruct (o_ev out) as [|e'|e'] eqn:EV.
            - cbn. split; [reflexivity|split; [reflexivity|right]]. split; [discriminate|split; [auto|split; [discriminate|left]]].
              exists m. destruct (is_end e) eqn:EE; [destruct P2|destruct P1]; auto.
            - pose proof (B e' eq_refl) as ->. cbn. split; [reflexivity|split; [reflexivity|right]].
              split; [discriminate|]. destruct (is_end e) eqn:EE.
              + destruct (EN eq_refl) as [?|[? _]]; discriminate.
              + split; [discriminate|split; [discriminate|left]]. exists m. destruct P1; auto.
            - pose proof (B e' eq_refl) as ->. destruct (is_tag e) eqn:TG; cbn [orb].
              + cbn. split; [reflexivity|split; [reflexivity|left]]. split; [exact TG|]. exists vals2, None.
                split; [reflexivity|]. destruct P1; [destruct e; cbn in *; congruence|]. cbn. auto.
              + destruct (is_end e) eqn:EE; cbn.
                * split; [reflexivity|split; [reflexivity|right]]. split; [exact EE|]. exists vals2. auto.
                * split; [reflexivity|split; [reflexivity|right]]. split; [discriminate|split; [congruence|split; [discriminate|left]]].
                  exists m. destruct P1; auto. }
          destruct elem eqn:EL.
          - split; [auto with safe|]. apply Stay.
            + intros EE. destruct (ms_kind _ _ SM) as [(KE & _)|KG].
              * split; [apply cap_free; eapply element_free; eauto|auto].
              * destruct (LT eq_refl m IN KG) as [L|[NS CN]]; [destruct (LA L v eq_refl); congruence|].
                split; [apply cap_free; exact CN|congruence].
            + intros EE DN. destruct (ms_kind _ _ SM) as [(KE & _)|KG].
              * split; [apply cap_free; eapply element_free; eauto|auto].
              * destruct (LT eq_refl m IN KG) as [L|[NS CN]]; [destruct (LA L v eq_refl); congruence|].
                split; [apply cap_free; exact CN|congruence].
          - destruct (m_occ m) eqn:OC; try exact Leave.
            + elim (ms_occ _ _ SM OC).
            + assert (CN : cap m = None) by (unfold cap; rewrite OC; reflexivity).
              assert (NS : single m = false) by (unfold single; rewrite OC; reflexivity).
              assert (SY : quiet (@Ok kind _ (from_event (o_ev out) (o_any out), EAt (D:=D) i vals2 None None, h1)) /\
                forall r, Ok (from_event (o_ev out) (o_any out), EAt i vals2 None None, h1) = @Ok kind _ r ->
                ehandled k i m e (o_ev out) (o_any out) r).
              { split; [auto with safe|]. apply Stay; intros; (split; [apply cap_free; exact CN|congruence]). }
              destruct (m_max m); [exact SY|]. destruct (Nat.ltb _ _); [exact SY|exact Leave].
            + assert (NS : single m = false) by (unfold single; rewrite OC; reflexivity).
              destruct (m_max m) as [|mx] eqn:MX.
              * split; [auto with safe|]. apply Stay; intros; (split; [|congruence]); intros c C; apply cap_static in C;
                  destruct C as (_ & C & _); congruence.
              * destruct (Nat.ltb_spec (length vals2) mx) as [LL|_]; [|exact Leave].
                split; [auto with safe|]. apply Stay; intros; (split; [|congruence]); intros c C; apply cap_static in C;
                  destruct C as (_ & C & _); rewrite MX in C; injection C as <-; lia. }
        split.
        + apply quiet_bind; [exact Q|]. intros [v1 h1] E. apply (Body v1 h1). eapply K; eauto.
        + intros r H. apply obind_ok in H. destruct H as ([v1 h1] & E & H). apply (Body v1 h1); [eapply K; eauto|exact H].
      - assert (EV : is_end e = true -> o_ev out = DNone).
        { intros EE. destruct (EN EE) as [?|[_ (w & X)]]; [assumption|discriminate X]. }
        assert (RS : forall vals1, length vals1 <= length vals + (if is_some fb then 1 else 0) ->
          erest k (EAt i vals1 None (Some d)) \/ (o_any out = false /\ exists e, o_ev out = DBreak e /\ is_tag e = true)).
        { intros vals1 LE. destruct ART as [AD|DO]; [left|right; exact DO]. exists m. split; [exact M|split; [|exact AD]].
          eapply within_less; [|exact WF]. lia. }
        assert (Brk : forall st h1, st <> EInit -> (forall t, st <> EFin t) ->
          (erest k st \/ (o_any out = false /\ exists e, o_ev out = DBreak e /\ is_tag e = true)) ->
          ehandled k i m e (o_ev out) (o_any out) (break_or_end elem (o_ev out) (o_any out), st, h1)).
        { intros st h1 N1 N2 R.
          assert (HB : ehandled k i m e (o_ev out) (o_any out) (HBreak (o_ev out) (o_any out), st, h1)).
          { cbn. split; [reflexivity|split; [reflexivity|right; auto]]. }
          unfold break_or_end. destruct elem; [|exact HB]. unfold from_event_end. destruct (o_ev out) as [|e'|e'] eqn:EO; try exact HB.
          pose proof (B e' eq_refl) as ->. destruct (is_end e) eqn:EE; [discriminate (EV eq_refl)|exact HB]. }
        assert (Body : forall vals1 h1, length vals1 <= length vals + (if is_some fb then 1 else 0) ->
          forall r, match m_occ m with
              | OSingle | OOptional => Ok (break_or_end elem (o_ev out) (o_any out), EAt i vals1 None (Some d), h1)
              | _ =>
                  let more :=
                    match m_max m with
                    | Bounded max => Nat.ltb (length vals1) (max - 1)
                    | Unbounded => true
                    end in
                  let ret := if more then from_event (o_ev out) (o_any out) else break_or_end elem (o_ev out) (o_any out) in
                  Ok (ret,
                      if more && is_continue_tag ret then EAt i vals1 (Some d) None
                      else EAt i vals1 None (Some d), h1)
              end = @Ok kind _ r -> ehandled k i m e (o_ev out) (o_any out) r).
        { intros vals1 h1 LE r. pose proof (RS vals1 LE) as R.
          assert (LST : single m = false -> forall r,
             (let more :=
                    match m_max m with
                    | Bounded max => Nat.ltb (length vals1) (max - 1)
                    | Unbounded => true
                    end in
                  let ret := if more then from_event (o_ev out) (o_any out) else break_or_end elem (o_ev out) (o_any out) in
                  Ok (ret,
                      if more && is_continue_tag ret then EAt i vals1 (Some d) None
                      else EAt i vals1 None (Some d), h1)) = @Ok kind _ r ->
             ehandled k i m e (o_ev out) (o_any out) r).
          { intros NS r'. cbv zeta. destruct (match m_max m with Bounded max => _ | Unbounded => _ end) eqn:MO; cbn [andb].
            2:{ intros [= <-]. apply Brk; [discriminate|discriminate|exact R]. }
            assert (W2 : within m (length vals1 + 2)).
            { intros c C. apply cap_static in C. destruct C as (_ & C & C2). rewrite C in MO. apply Nat.ltb_lt in MO. lia. }
            destruct (o_ev out) as [|e'|e'] eqn:EO; cbn [from_event is_continue_tag].
            - intros [= <-]. cbn. split; [reflexivity|split; [reflexivity|right]]. split; [discriminate|split; [auto|split; [discriminate|exact R]]].
            - intros [= <-]. cbn. split; [reflexivity|split; [reflexivity|right]]. split; [discriminate|split; [auto|split; [discriminate|exact R]]].
            - pose proof (B e' eq_refl) as ->. destruct (is_tag e) eqn:TG; cbn [orb is_continue_tag].
              + rewrite TG. intros [= <-]. cbn. split; [reflexivity|split; [reflexivity|left]]. split; [exact TG|].
                exists vals1, (Some d). split; [reflexivity|]. cbn. split; [exact NS|split; [|exact W2]].
                destruct ART as [AD|(_ & e1 & E1 & _)]; [exact AD|congruence].
              + destruct (is_end e) eqn:EE; [discriminate (EV eq_refl)|]. cbn [is_continue_tag].
                intros [= <-]. cbn. split; [reflexivity|split; [reflexivity|right]]. split; [discriminate|split; [congruence|split; [discriminate|exact R]]]. }
          destruct (m_occ m) eqn:OC;
            try (intros [= <-]; apply Brk; [discriminate|discriminate|exact R]);
            try (apply LST; unfold single; rewrite OC; reflexivity). }
        split.
        + apply quiet_bind; [exact Q|]. intros [v1 h1] E. destruct (m_occ m); apply quiet_ok.
        + intros r H. apply obind_ok in H. destruct H as ([v1 h1] & E & H). apply (Body v1 h1); [eapply K; eauto|exact H].
    Qed.

    (** An element asked to start once more. *)
    Lemma estart_ok k m h e : member_safe n m -> k < n -> is_tag e = true ->
      match (match m_kind m with KindElement => init_start_tag m (m_any m) h e | _ => de_init (m_deser m) h e end) with
      | Panic => False
      | Err _ => True
      | Ok (o, _) => back (o_ev o) e /\
          match o_art o with
          | ANone => o_ev o = DContinue e /\ (m_kind m = KindElement -> o_any o = false)
          | AData _ => o_ev o = DNone /\ ~ late (m_deser m)
          | ADes d => o_ev o = DNone /\ live (m_deser m) k d
          end
      end.
    Proof.
      intros SM K TG. assert (EN : is_end e = false) by (destruct e; cbn in *; congruence).
      pose proof (live_init _ _ _ _ _ (ms_init _ _ SM k h e K EN)) as I0.
      assert (I1 : match de_init (m_deser m) h e with
        | Panic => False | Err _ => True
        | Ok (o, _) => back (o_ev o) e /\
          match o_art o with
          | ANone => o_ev o = DContinue e /\ (m_kind m = KindElement -> o_any o = false)
          | AData _ => o_ev o = DNone /\ ~ late (m_deser m)
          | ADes d => o_ev o = DNone /\ live (m_deser m) k d
          end end).
      { unfold start_ok in I0. destruct (de_init (m_deser m) h e) as [[o h']| |] eqn:DI; auto. rewrite TG in I0.
        destruct I0 as [B I0]. split; [exact B|]. destruct (o_art o) as [|v|d] eqn:AO; auto.
        - destruct I0 as [G ->]. split; [reflexivity|]. intros KE. unfold is_group in G. rewrite KE in G. discriminate.
        - split; [exact I0|]. intros [LI _]. destruct (LI _ _ _ _ _ DI AO) as (e' & _ & X). congruence. }
      destruct (ms_kind _ _ SM) as [(KE & _ & NA)|KG].
      - rewrite KE in *. unfold init_start_tag.
        destruct (check_tag _ _ _ _); [exact I1|]. cbn. split; [apply back_continue|auto].
      - rewrite KG in *. exact I1.
    Qed.

    Lemma ehandled_break k i m e ev any de x st h : ehandled k i m e ev any (HBreak de x, st, h) -> back ev e ->
      (is_end e = true -> ev = DNone \/ ev = DContinue e) ->
      step_ok (erest k) e (enum_end st h de x).
    Proof.
      intros (-> & -> & [(t & ->)|(NI & EV & NF & R)]) B EN.
      - cbn. split; [exact B|split; [|exact I]]. intros EE. destruct (EN EE); eauto.
      - assert (step_ok (erest k) e (Ok (DOut (@ADes (variant (V:=V)) est st) ev any, h))).
        { cbn. split; [exact B|split; [auto|]]. destruct R as [R|(-> & e1 & -> & T1)]; [left; exact R|right].
          split; [reflexivity|exists e1; auto]. }
        destruct st; auto. elim (NF v). reflexivity.
    Qed.

    Lemma esecond_ok k i m vals fb h e fuel : k < n -> nth_error ms i = Some m -> open_at k i m vals fb -> is_tag e = true ->
      step_ok (erest k) e (enum_loop elem allow_any mixed defaultable ms (S fuel) (EAt i vals fb None) h e).
    Proof.
      intros K M OP TG. pose proof (safe_at ms n MS _ _ M) as SM.
      assert (EE : is_end e = false) by (destruct e; cbn in *; congruence).
      cbn [enum_loop]. rewrite EE, TG, M. pose proof (estart_ok k m h e SM K TG) as ST.
      destruct (match m_kind m with KindElement => _ | _ => _ end) as [[o h1]| |]; [|exact I|elim ST].
      cbn [obind]. destruct ST as [B ST].
      assert (NN : o_art o <> ANone -> o_ev o = DNone ->
        match o_art o with ANone => False | AData _ => ~ late (m_deser m) | ADes d => live (m_deser m) k d end ->
        step_ok (erest k) e (let* (ho, st', h') := enum_handle elem defaultable ms i m vals fb o h1 in
          match ho with
          | HContinue e' _ => enum_loop elem allow_any mixed defaultable ms fuel st' h' e'
          | HBreak de x => enum_end st' h' de x
          end)).
      { intros N0 EV ART. destruct (ehandle_ok k i m vals fb o h1 e M B) as [Q H].
        - congruence.
        - destruct fb; [split; apply OP|apply OP].
        - destruct (o_art o); auto.
        - intros L v AV. rewrite AV in ART. elim ART. exact L.
        - destruct (enum_handle elem defaultable ms i m vals fb o h1) as [[[ho st'] h']| |]; [|exact I|congruence].
          cbn [obind]. specialize (H _ eq_refl). destruct ho as [e' x|de x].
          + destruct H as (_ & X & _). congruence.
          + eapply ehandled_break; eauto. }
      destruct (o_art o) as [|v|d] eqn:AO.
      - destruct ST as [EV AN]. unfold enum_handle. rewrite AO, EV.
        assert (BO : forall st x, erest k st -> st <> EInit -> (forall t, st <> EFin t) ->
          step_ok (erest k) e (enum_end st h1 (DContinue e) x) /\ step_ok (erest k) e (enum_end st h1 (DBreak e) x)).
        { intros st x R N1 N2. destruct st; try (elim R; fail); try congruence.
          split; cbn -[erest]; (split; [auto with frame|split; [congruence|left; exact R]]). }
        assert (LI : single m = false -> erest k (EAt i vals None fb)).
        { intros NS. exists m. split; [exact M|]. destruct fb as [d0|]; cbn in OP.
          - destruct OP as (_ & AL & W). split; [eapply within_less; [|exact W]; lia|exact AL].
          - destruct OP as (NV & W & _). split; [exact W|]. split; [exact NV|congruence]. }
        assert (BE : break_or_end elem (DContinue e) (o_any o) = HBreak (DContinue e) (o_any o)).
        { unfold break_or_end. cbn. rewrite EE. destruct elem; reflexivity. }
        destruct (m_occ m) eqn:OC; cbn [obind]; try exact I.
        + elim (ms_occ _ _ SM OC).
        + assert (KE : m_kind m = KindElement).
          { assert (SG : single m = true) by (unfold single; rewrite OC; reflexivity).
            destruct fb; cbn in OP; [destruct OP; congruence|apply OP; exact SG]. }
          unfold continue_or_return. rewrite KE, (AN KE). cbn. split; [auto with frame|split; [congruence|right]].
          split; [reflexivity|exists e; auto].
        + assert (KE : m_kind m = KindElement).
          { assert (SG : single m = true) by (unfold single; rewrite OC; reflexivity).
            destruct fb; cbn in OP; [destruct OP; congruence|apply OP; exact SG]. }
          unfold continue_or_return. rewrite KE, (AN KE). cbn. split; [auto with frame|split; [congruence|right]].
          split; [reflexivity|exists e; auto].
        + assert (NS : single m = false) by (unfold single; rewrite OC; reflexivity). specialize (LI NS).
          rewrite BE.
          destruct fb as [d0|]; [|destruct vals as [|w vals]; [destruct OP as [X _]; congruence|]];
            (destruct (BO _ (o_any o) LI ltac:(discriminate) ltac:(discriminate)) as [B1 B2];
              destruct (negb _ && _)%bool; cbn [obind]; [exact B2|exact B1]).
        + assert (NS : single m = false) by (unfold single; rewrite OC; reflexivity). specialize (LI NS).
          rewrite BE.
          destruct fb as [d0|]; [|destruct vals as [|w vals]; [destruct OP as [X _]; congruence|]];
            (destruct (BO _ (o_any o) LI ltac:(discriminate) ltac:(discriminate)) as [B1 B2];
              destruct (negb _ && _)%bool; cbn [obind]; [exact B2|exact B1]).
      - destruct ST. apply NN; auto. discriminate.
      - destruct ST. apply NN; auto. discriminate.
    Qed.

    Definition taken (k : nat) (e : event) (r : hout * est * dhelper) : Prop :=
      match r with
      | (HBreak de _, st, _) => de = DNone /\ ((exists t, st = EFin t) \/ (st <> EInit /\ erest k st))
      | _ => False
      end.

    Lemma eonce_ok k i m (r : dresult V D) e : k < n -> nth_error ms i = Some m -> is_tag e = true ->
      match r with
      | Panic => False
      | Err _ => True
      | Ok (o, _) => back (o_ev o) e /\
          match o_art o with
          | ANone => o_ev o = DContinue e /\ is_group m = true
          | AData _ => o_ev o = DNone /\ ~ late (m_deser m)
          | ADes d => o_ev o = DNone /\ live (m_deser m) k d
          end
      end ->
      match (let* (out, h1) := r in enum_handle elem defaultable ms i m [] None out h1) with
      | Panic => False
      | Err _ => True
      | Ok res => taken k e res \/ (exists x st h, res = (HContinue e x, st, h) /\ is_group m = true)
      end.
    Proof.
      intros K M TG ST. pose proof (safe_at ms n MS _ _ M) as SM.
      assert (EE : is_end e = false) by (destruct e; cbn in *; congruence).
      destruct r as [[o h1]| |]; [|exact I|elim ST]. cbn [obind]. destruct ST as [B ST].
      destruct (o_art o) as [|v|d] eqn:AO.
      - destruct ST as [EV G]. unfold enum_handle. rewrite AO, EV. unfold continue_or_return.
        pose proof G as G'. unfold is_group in G'. destruct (m_kind m) eqn:KD; try discriminate G'.
        cbn [from_event]. rewrite TG. cbn [orb].
        destruct (m_occ m) eqn:OC; try (right; eexists; eexists; eexists; split; [reflexivity|exact G]).
        elim (ms_occ _ _ SM OC).
      - destruct ST as [EV NL]. destruct (ehandle_ok k i m [] None o h1 e M B) as [Q H].
        + congruence.
        + apply (within_less m _ 2); [cbn; lia|eapply within_two].
        + rewrite AO. exact I.
        + intros L w _. elim NL. exact L.
        + destruct (enum_handle elem defaultable ms i m [] None o h1) as [[[ho st'] h']| |]; [|exact I|congruence].
          specialize (H _ eq_refl). rewrite EV in H. left. destruct ho as [e' x|de x].
          * destruct H as (_ & X & _). discriminate X.
          * destruct H as (-> & _ & [T|(NI & _ & _ & [R|(_ & e1 & X & _)])]); cbn; auto. discriminate X.
      - destruct ST as [EV AL]. destruct (ehandle_ok k i m [] None o h1 e M B) as [Q H].
        + congruence.
        + apply (within_less m _ 2); [cbn; lia|eapply within_two].
        + rewrite AO. auto.
        + intros L w X. congruence.
        + destruct (enum_handle elem defaultable ms i m [] None o h1) as [[[ho st'] h']| |]; [|exact I|congruence].
          specialize (H _ eq_refl). rewrite EV in H. left. destruct ho as [e' x|de x].
          * destruct H as (_ & X & _). discriminate X.
          * destruct H as (-> & _ & [T|(NI & _ & _ & [R|(_ & e1 & X & _)])]); cbn; auto. discriminate X.
    Qed.

    Lemma einit_ok k m h e : member_safe n m -> k < n -> is_tag e = true ->
      match de_init (m_deser m) h e with
      | Panic => False
      | Err _ => True
      | Ok (o, _) => back (o_ev o) e /\
          match o_art o with
          | ANone => o_ev o = DContinue e /\ is_group m = true
          | AData _ => o_ev o = DNone /\ ~ late (m_deser m)
          | ADes d => o_ev o = DNone /\ live (m_deser m) k d
          end
      end.
    Proof.
      intros SM K TG. assert (EN : is_end e = false) by (destruct e; cbn in *; congruence).
      pose proof (live_init _ _ _ _ _ (ms_init _ _ SM k h e K EN)) as I0.
      unfold start_ok in I0. destruct (de_init (m_deser m) h e) as [[o h']| |] eqn:DI; auto. rewrite TG in I0.
      destruct I0 as [B I0]. split; [exact B|]. destruct (o_art o) as [|v|d] eqn:AO; auto.
      - destruct I0 as [G ->]. auto.
      - split; [exact I0|]. intros [LI _]. destruct (LI _ _ _ _ _ DI AO) as (e' & _ & X). congruence.
    Qed.

    Lemma tries_ok k e (sel : mkind -> bool) : k < n -> is_tag e = true -> sel KindElement = false ->
      forall l i any h, (forall j m, nth_error l j = Some m -> nth_error ms (i + j) = Some m) ->
      match try_groups elem defaultable ms sel i l e any h with
      | Panic => False
      | Err _ => True
      | Ok (inl r) => taken k e r
      | Ok (inr (e', _, _)) => e' = e
      end.
    Proof.
      intros K TG SE. induction l as [|m l IH]; intros i any h NT; [reflexivity|]. cbn [try_groups].
      assert (M : nth_error ms i = Some m) by (rewrite <- (NT 0 m eq_refl); f_equal; lia).
      assert (NT' : forall j m, nth_error l j = Some m -> nth_error ms (S i + j) = Some m).
      { intros j m' J. rewrite <- (NT (S j) m' J). f_equal. lia. }
      destruct (sel (m_kind m)) eqn:SL; [|apply IH; exact NT'].
      pose proof (eonce_ok k i m _ e K M TG (einit_ok k m h e (safe_at ms n MS _ _ M) K TG)) as ON.
      destruct (de_init (m_deser m) h e) as [[o h1]| |]; [|exact I|elim ON]. cbn [obind] in *.
      destruct (enum_handle elem defaultable ms i m [] None o h1) as [[[ho st] h2]| |]; [|exact I|elim ON].
      cbn [obind]. destruct ON as [TK|(x & st' & h' & E & _)].
      - destruct ho; [elim TK|exact TK].
      - injection E as -> _ _. apply IH. exact NT'.
    Qed.

    Lemma no_text : first_text 0 ms = None.
    Proof.
      generalize 0 as i. revert MS. clear. intros F. induction F as [|m l SM _ IH]; intros i; [reflexivity|].
      cbn [first_text]. destruct (ms_kind _ _ SM) as [(-> & _)| ->]; apply IH.
    Qed.

    Lemma find_tag_in e h i m : forall l j, (forall q x, nth_error l q = Some x -> nth_error ms (j + q) = Some x) ->
      find_tag j l e h = Some (i, m) -> nth_error ms i = Some m /\ m_kind m = KindElement.
    Proof.
      induction l as [|x l IH]; intros j NT H; [discriminate|]. cbn [find_tag] in H.
      destruct (mkind_eqb (m_kind x) KindElement && check_tag h e (m_ns x) (m_name x))%bool eqn:C.
      - injection H as <- <-. split; [rewrite <- (NT 0 x eq_refl); f_equal; lia|].
        apply Bool.andb_true_iff in C. destruct C as [C _]. destruct (m_kind x); (reflexivity || discriminate C).
      - apply (IH (S j)); [|exact H]. intros q y Q. rewrite <- (NT (S q) y Q). f_equal. lia.
    Qed.

    Lemma find_ok k e h : k < n ->
      match find_suitable elem allow_any defaultable ms e h with
      | Panic => False
      | Err _ => True
      | Ok (ho, st, h') => (is_tag e = true /\ taken k e (ho, st, h')) \/ (exists x, ho = HBreak (DContinue e) x /\ st = EInit)
      end.
    Proof.
      intros K. unfold find_suitable. rewrite no_text. destruct (is_tag e) eqn:TG.
      - destruct (find_tag 0 ms e h) as [[i m]|] eqn:FT.
        + apply find_tag_in in FT; [|intros q x Q; exact Q]. destruct FT as [M KE].
          pose proof (eonce_ok k i m _ e K M TG (einit_ok k m h e (safe_at ms n MS _ _ M) K TG)) as ON.
          destruct (de_init (m_deser m) h e) as [[o h1]| |]; [|exact I|elim ON]. cbn [obind] in *.
          destruct (enum_handle elem defaultable ms i m [] None o h1) as [[[ho st] h2]| |]; [|exact I|elim ON].
          destruct ON as [TK|(x & st' & h' & E & G)]; [left; auto|]. unfold is_group in G. rewrite KE in G. discriminate G.
        + pose proof (tries_ok k e sel_group K TG eq_refl ms 0 false h (fun j m J => J)) as TR.
          destruct (try_groups elem defaultable ms sel_group 0 ms e false h) as [[r|[[e1 any] h1]]| |]; [| |exact I|elim TR].
          * cbn [obind]. destruct r as [[ho st] h']. left. auto.
          * cbn [obind]. subst e1.
            pose proof (tries_ok k e sel_any K TG eq_refl ms 0 false h1 (fun j m J => J)) as TR.
            destruct (try_groups elem defaultable ms sel_any 0 ms e false h1) as [[r|[[e2 any2] h2]]| |]; [| |exact I|elim TR].
            -- cbn [obind]. destruct r as [[ho st] h']. left. auto.
            -- cbn [obind]. subst e2. right. eexists. split; reflexivity.
      - right. eexists. split; reflexivity.
    Qed.

    Lemma enum_next_ok k st h e : k < n -> erest (S k) st ->
      step_ok (erest k) e (enum_next elem allow_any mixed defaultable ms st h e).
    Proof.
      intros K R. unfold enum_next, enum_fuel. remember 3 as f3 eqn:F3.
      assert (LS : forall d m, live (m_deser m) (S k) d -> live (m_deser m) k d) by (intros d m; apply live_less).
      assert (FE : forall st, quiet (enum_finish_state defaultable ms st h) ->
        step_ok (erest k) e (let* (v, h1) := enum_finish_state defaultable ms st h in
           Ok (DOut (AData v) (if elem then DNone else DContinue e) false, h1))).
      { intros st' Q. destruct (enum_finish_state defaultable ms st' h) as [[v h1]| |]; [|exact I|congruence].
        cbn. destruct elem; (split; [auto with frame|split; [eauto|exact I]]). }
      destruct st as [|i vals [fb|] [d|]|t|]; try (elim R; fail).
      - (* nothing yet *)
        cbn [enum_loop]. destruct (is_end e) eqn:EE; [apply FE; apply efinish_init|].
        pose proof (find_ok k e h K) as F.
        destruct (find_suitable elem allow_any defaultable ms e h) as [[[ho st] h']| |]; [|exact I|elim F].
        cbn [obind]. destruct F as [[TG T]|(x & -> & ->)].
        + destruct ho as [e' x|de x]; [elim T|]. destruct T as [-> [(t & ->)|(NI & R')]].
          * cbn. split; [auto with frame|split; [congruence|exact I]].
          * assert (step_ok (erest k) e (Ok (DOut (@ADes (variant (V:=V)) est st) DNone x, h'))).
            { cbn -[erest]. split; [auto with frame|split; [congruence|left; exact R']]. }
            destruct st; auto; elim R'.
        + cbn. split; [auto with frame|split; [congruence|left; exact I]].
      - (* an unfinished value *)
        destruct R as (m & M & W & AL). cbn [enum_loop]. rewrite M.
        pose proof (live_step _ _ _ h e AL) as ST. destruct (de_next (m_deser m) d h e) as [[o h1]| |] eqn:DN; [|exact I|elim ST].
        cbn [obind]. destruct ST as (B & EN & ART).
        destruct (ehandle_ok k i m vals None o h1 e M B EN W ART) as [Q H].
        { intros [_ L] v AV. destruct (L _ _ _ _ _ _ (proj2 AL) DN AV) as (e' & E1 & E2). pose proof (B e') as X.
          rewrite E2 in X. specialize (X eq_refl). subst e'. auto. }
        destruct (enum_handle elem defaultable ms i m vals None o h1) as [[[ho st'] h']| |]; [|exact I|congruence].
        cbn [obind]. specialize (H _ eq_refl). destruct ho as [e' x|de x].
        + destruct H as (-> & EV & [(TG & vals' & fb & -> & OP)|(EE & vals' & -> & W')]).
          * rewrite F3. apply (esecond_ok k i m); auto.
          * rewrite F3. cbn [enum_loop]. rewrite EE.
            assert (Q1 : quiet (enum_finish_state defaultable ms (EAt i vals' None None) h')).
            { eapply (efinish_at i m vals' None h' k M I). cbn. eapply within_less; [|exact W']. lia. }
            destruct (enum_finish_state defaultable ms (EAt i vals' None None) h') as [[v h2]| |]; [|exact I|congruence].
            cbn. destruct elem; (split; [auto with frame|split; [eauto|exact I]]).
        + eapply ehandled_break; eauto. intros EE. destruct (EN EE) as [?|[? _]]; auto.
      - (* between two values *)
        destruct R as (m & M & W & NV & SG). destruct (is_end e) eqn:EE.
        + cbn [enum_loop]. rewrite EE. apply FE. eapply (efinish_at i m vals None h k M I). cbn. eapply within_less; [|exact W]. lia.
        + destruct (is_tag e) eqn:TG.
          * eapply esecond_ok; eauto. cbn. auto.
          * cbn [enum_loop]. rewrite EE, TG.
            destruct (mixed && is_chars e)%bool; cbn -[erest];
              (split; [auto with frame|split; [congruence|left; exists m; auto]]).
    Qed.

    Notation des := (enum_deser from_start elem allow_any mixed defaultable ms).

    Lemma erest_less k st : erest (S k) st -> erest k st.
    Proof.
      destruct st as [|i vals [fb|] cur|t|]; auto. intros (m & M & W & C). exists m. split; [exact M|split; [exact W|]].
      destruct cur; [apply live_less; exact C|exact C].
    Qed.

    Lemma enum_alive k d : k <= n -> erest k d -> alive des k d.
    Proof.
      intros K. revert d. revert k K. apply alive_inv; cbn [de_next de_finish enum_deser].
      - intros k d h. apply efinish_rest.
      - apply erest_less.
      - intros k d h e. apply enum_next_ok.
    Qed.

    Lemma enum_element_start k h e : k <= n -> elem = true -> start_ok false (alive des k) e (de_init des h e).
    Proof.
      intros K EL. assert (IE : de_init des h e = enum_init_element from_start defaultable ms h e) by (cbn [de_init cdes_deser enum_deser seq_deser all_deser]; rewrite EL; reflexivity).
      rewrite IE. clear IE. unfold enum_init_element. destruct e; try (cbn; auto with frame; fail).
      - pose proof (SQ h name attrs). destruct (from_start h name attrs) as [[a h']| |]; [|exact I|congruence].
        cbn -[alive]. split; [auto with frame|]. split; [reflexivity|]. apply enum_alive; [exact K|exact I].
      - pose proof (SQ h name attrs). destruct (from_start h name attrs) as [[a h']| |]; [|exact I|congruence].
        cbn [obind]. pose proof (efinish_init h') as Q. unfold enum_finish.
        destruct (enum_finish_state defaultable ms EInit h') as [[v h'']| |]; [|exact I|congruence]. cbn. auto with frame.
    Qed.

    Lemma enum_group_start k h e : k < n -> is_end e = false -> elem = false ->
      start_ok true (alive des k) e (de_init des h e).
    Proof.
      intros K EN EL.
      assert (IE : de_init des h e = enum_init_group elem allow_any mixed defaultable ms h e) by (cbn [de_init cdes_deser enum_deser seq_deser all_deser]; rewrite EL; reflexivity).
      rewrite IE. clear IE. unfold enum_init_group, enum_next, enum_fuel. cbn [enum_loop]. rewrite EN.
      pose proof (find_ok k e h K) as F.
      destruct (find_suitable elem allow_any defaultable ms e h) as [[[ho st] h']| |]; [|exact I|elim F].
      cbn [obind]. destruct F as [[TG T]|(x & -> & ->)].
      - destruct ho as [e' x|de x]; [elim T|]. destruct T as [-> [(t & ->)|(NI & R')]].
        + cbn. rewrite TG. split; [auto with frame|reflexivity].
        + assert (AL : alive des k st) by (apply enum_alive; [lia|exact R']).
          destruct st; try congruence; try (elim R'; fail).
          cbn -[alive]. rewrite TG. split; [auto with frame|]. auto.
      - cbn. split; [auto with frame|]. destruct (is_tag e); auto.
    Qed.
  End Choice.

  (** ** Types around a content type *)
  Section Content.
    Variables (elem : bool) (no_attrs : A) (m : member V D) (n : nat).
    Hypothesis SM : member_safe n m.
    Hypothesis GM : is_group m = true.
    Hypothesis OM : elem = false -> m_occ m = OSingle /\ exists mx, m_max m = Bounded mx.
    Hypothesis LT : elem = true -> late (m_deser m) \/ cap m = None.

    Notation cst := (cstate (D:=D)).
    Notation chs := (chstate (V:=V) (D:=D)).

    Definition cat (k : nat) (vals : list V) (st : cst) : Prop :=
      match st with
      | KInit | KNext => within m (length vals + 1)
      | KAt d => live (m_deser m) k d /\ within m (length vals + 1)
      | _ => False
      end.
    Definition crest (k : nat) (d : cdes (V:=V) (D:=D) (A:=A)) : Prop := cat k (cd_vals d) (cd_state d).

    (** Ready for another value. *)
    Definition copen (k : nat) (vals : list V) (fb : option cst) : Prop :=
      match fb with
      | Some (KAt d) => live (m_deser m) k d /\ within m (length vals + 2)
      | Some KInit | Some KNext | None => within m (length vals + 1)
      | _ => False
      end.

    Lemma cstore_quiet vals v : quiet (content_store m vals v).
    Proof.
      pose proof (ms_occ _ _ SM). unfold content_store. destruct (m_occ m); try congruence; auto with safe;
        destruct vals; auto with safe.
    Qed.
    Lemma cstore_length vals v vs : content_store m vals v = Ok vs -> length vs <= length vals + 1.
    Proof.
      unfold content_store. destruct (m_occ m); try discriminate; try (destruct vals; [|discriminate]);
        intros [= <-]; rewrite ?app_length; cbn; lia.
    Qed.
    Lemma cfinish_quiet vals h : within m (length vals) -> quiet (content_finish_vals m vals h).
    Proof.
      intros W. pose proof (ms_default _ _ SM) as Q. pose proof (ms_occ _ _ SM) as NO. unfold content_finish_vals.
      unfold within, cap in W. destruct (m_occ m) eqn:O.
      - congruence.
      - destruct (m_default m) as [df|] eqn:E.
        + apply quiet_bind; [|intros [v h'] _; auto with safe]. unfold finish_default. destruct (hd_error vals); auto with safe.
        + destruct vals; auto with safe.
      - auto with safe.
      - destruct (m_default m) as [df|].
        + apply push_quiet. auto.
        + apply quiet_bind; [|intros v _; auto with safe]. unfold finish_vec. destruct (_ && _)%bool; auto with safe.
      - destruct (m_default m) as [df|].
        + apply arr_quiet; auto.
        + apply quiet_bind; [|intros v _; auto with safe]. unfold finish_arr. destruct (Nat.eqb _ _); auto with safe.
    Qed.

    Definition extra (st : option cst) : nat := match st with Some (KAt _) => 1 | _ => 0 end.
    Lemma ckeep_ok k vals fb h : match fb with Some (KAt d) => live (m_deser m) k d | _ => True end ->
      quiet (match fb with Some st => content_finish_state m vals st h | None => Ok (vals, h) end) /\
      forall vs h', match fb with Some st => content_finish_state m vals st h | None => Ok (vals, h) end = Ok (vs, h') ->
        length vs <= length vals + extra fb.
    Proof.
      intros AL. destruct fb as [[| |d| |]|]; cbn [content_finish_state extra];
        try (split; [auto with safe|intros vs h' [= <- _]; lia]).
      split.
      - apply quiet_bind; [eapply live_finish; eauto|]. intros [v h1] _. apply quiet_bind; [apply cstore_quiet|auto with safe].
      - intros vs h' H. bind H. bind H. injection H as <- _. apply cstore_length in E0. lia.
    Qed.

    Lemma crest_finish k d h : crest k d -> quiet (cdes_finish m d h).
    Proof.
      intros R. unfold cdes_finish.
      assert (AL : match Some (cd_state d) with Some (KAt d) => live (m_deser m) k d | _ => True end).
      { unfold crest, cat in R. destruct (cd_state d); auto. apply R. }
      destruct (ckeep_ok k (cd_vals d) (Some (cd_state d)) h AL) as [Q L].
      apply quiet_bind; [exact Q|]. intros [vs h1] E. apply quiet_bind; [|intros [w h2] _; auto with safe].
      apply cfinish_quiet. eapply within_less; [exact (L _ _ E)|]. unfold crest, cat in R.
      destruct (cd_state d); cbn [extra]; try (eapply within_less; [|exact R]; lia); try (elim R; fail).
      destruct R as [_ R]. exact R.
    Qed.

    Definition chandled (k : nat) (e : event) (ev : devent) (any : bool) (r : hout * chs) : Prop :=
      match r with
      | (HContinue e' _, (vals, st, fb, _)) => elem = true /\ e' = e /\ ev = DContinue e /\ st = KNext /\
          ((is_tag e = true /\ copen k vals fb) \/ (is_end e = true /\ fb = None /\ within m (length vals)))
      | (HBreak de x, (vals, st, fb, _)) => de = ev /\ x = any /\
          ((elem = false /\ st = KDone /\ fb = None /\ within m (length vals)) \/
           ((is_end e = true -> ev = DNone) /\
            (cat k vals (match fb with Some f => f | None => st end) \/
             (any = false /\ exists e, ev = DBreak e /\ is_tag e = true))))
      end.

    Lemma chandle_ok k vals out fb h e :
      back (o_ev out) e ->
      match o_art out with
      | ANone => is_end e = false
      | AData _ => (is_end e = true -> o_ev out = DNone \/ o_ev out = DContinue e) /\
          (late (m_deser m) -> o_ev out = DContinue e /\ is_end e = true)
      | ADes d => (is_end e = true -> o_ev out = DNone) /\ (live (m_deser m) k d \/ doomed out)
      end ->
      copen k vals fb ->
      quiet (content_handle elem m vals out fb h) /\
      forall r, content_handle elem m vals out fb h = Ok r -> chandled k e (o_ev out) (o_any out) r.
    Proof.
      intros B ART OP.
      assert (AL : match fb with Some (KAt d) => live (m_deser m) k d | _ => True end).
      { destruct fb as [[| |d| |]|]; auto. apply OP. }
      assert (WF : within m (length vals + extra fb + 1)).
      { destruct fb as [[| |d| |]|]; cbn [extra copen] in *; try (elim OP; fail);
          try (eapply within_less; [|exact OP]; lia). eapply within_less; [|apply OP]. lia. }
      destruct (ckeep_ok k vals fb h AL) as [Q L].
      unfold content_handle. destruct (o_art out) as [|v|d].
      - (* refused *)
        assert (BK : cat k vals (match fb with Some f => f | None => KNext end)).
        { destruct fb as [[| |d| |]|]; cbn [cat copen] in *; auto. destruct OP as [OA OW]. split; [exact OA|].
          eapply within_less; [|exact OW]. lia. }
        assert (HB : forall st fb', (match fb' with Some f => f | None => st end) = (match fb with Some f => f | None => KNext end) ->
          chandled k e (o_ev out) (o_any out) (HBreak (o_ev out) (o_any out), (vals, st, fb', h))).
        { intros st fb' E. cbn. split; [reflexivity|split; [reflexivity|right]]. split; [congruence|]. left. rewrite E. exact BK. }
        split.
        + destruct elem; [apply quiet_ok|]. destruct (_ || _)%bool; [apply quiet_ok|]. destruct (m_occ m); try apply quiet_ok;
            destruct (Nat.ltb _ _); apply quiet_ok.
        + destruct elem eqn:EL.
          * intros r [= <-]. replace (from_event_end (o_ev out) (o_any out)) with (HBreak (o_ev out) (o_any out)); [apply HB; reflexivity|].
            unfold from_event_end. destruct (o_ev out) as [|e'|e'] eqn:EO; try reflexivity. pose proof (B e' eq_refl) as ->. rewrite ART. reflexivity.
          * destruct (_ || _)%bool; [intros r [= <-]; apply HB; reflexivity|].
            destruct (OM eq_refl) as [-> _]. intros r [= <-]. destruct fb as [f|]; [apply HB; reflexivity|].
            cbn. split; [reflexivity|split; [reflexivity|right]]. split; [congruence|]. left. exact OP.
      - (* a value *)
        destruct ART as [EN LA]. split.
        { apply quiet_bind; [exact Q|]. intros [v1 h1] _. apply quiet_bind; [apply cstore_quiet|]. intros v2 _.
          destruct elem; [apply quiet_ok|]. destruct (m_occ m); try apply quiet_ok; destruct (m_max m); try apply quiet_ok;
            destruct (Nat.ltb _ _); apply quiet_ok. }
        intros r H. apply obind_ok in H. destruct H as ([vals1 h1] & E1 & H). apply L in E1.
        apply obind_ok in H. destruct H as (vals2 & E2 & H). apply cstore_length in E2. cbn zeta beta iota in H.
        assert (W2 : within m (length vals2)) by (eapply within_less; [|exact WF]; lia).
        destruct elem eqn:EL.
        + assert (HB : forall ev0, o_ev out = ev0 -> (forall e, ev0 <> DContinue e) -> cap m = None ->
            (is_end e = true -> ev0 = DNone) ->
            chandled k e ev0 (o_any out) (HBreak ev0 (o_any out), (vals2, KNext, None, h1))).
          { intros ev0 EV NC CN EE. cbn. split; [reflexivity|split; [reflexivity|right]]. split; [exact EE|].
            left. apply cap_free. exact CN. }
          injection H as <-. destruct (o_ev out) as [|e'|e'] eqn:EO; cbn [from_event].
          * destruct (LT eq_refl) as [LM|CN]; [destruct (LA LM); congruence|]. apply HB; auto. discriminate.
          * destruct (LT eq_refl) as [LM|CN]; [destruct (LA LM); congruence|]. apply HB; auto; [discriminate|].
            intros EE. destruct (EN EE); congruence.
          * pose proof (B e' eq_refl) as ->. destruct (is_tag e) eqn:TG; cbn [orb].
            -- destruct (LT eq_refl) as [LM|CN]; [destruct (LA LM) as [_ EE]; apply end_not_tag in EE; congruence|].
               cbn. split; [exact EL|]. split; [reflexivity|]. split; [reflexivity|]. split; [reflexivity|]. left. split; [exact TG|].
               apply cap_free. exact CN.
            -- destruct (is_end e) eqn:EE.
               ++ cbn. split; [exact EL|]. split; [reflexivity|]. split; [reflexivity|]. split; [reflexivity|]. right. auto.
               ++ destruct (LT eq_refl) as [LM|CN]; [destruct (LA LM); congruence|].
                  cbn. split; [reflexivity|split; [reflexivity|right]]. split; [congruence|].
                  left. apply cap_free. exact CN.
        + destruct (OM eq_refl) as [OS _]. rewrite OS in H. injection H as <-. cbn. split; [reflexivity|split; [reflexivity|left; auto]].
      - (* an unfinished value *)
        destruct ART as [EN AR]. split.
        { apply quiet_bind; [exact Q|]. intros [v1 h1] _. cbn zeta. destruct (m_occ m); try apply quiet_ok; destruct (m_max m); try apply quiet_ok;
            destruct (Nat.ltb _ _); apply quiet_ok. }
        intros r H. apply obind_ok in H. destruct H as ([vals1 h1] & E1 & H). apply L in E1. cbn zeta beta iota in H.
        assert (W1 : within m (length vals1 + 1)) by (eapply within_less; [|exact WF]; lia).
        assert (CA : cat k vals1 (KAt d) \/ (o_any out = false /\ exists e, o_ev out = DBreak e /\ is_tag e = true)).
        { destruct AR as [AD|DO]; [left; split; auto|right; exact DO]. }
        assert (Stop : Ok (if elem then from_event_end (o_ev out) (o_any out) else HBreak (o_ev out) (o_any out), (vals1, KAt d, @None cst, h1)) = @Ok kind _ r ->
          chandled k e (o_ev out) (o_any out) r).
        { intros [= <-].
          assert (HB : chandled k e (o_ev out) (o_any out) (HBreak (o_ev out) (o_any out), (vals1, KAt d, None, h1))).
          { cbn. split; [reflexivity|split; [reflexivity|right]]. auto. }
          destruct elem; [|exact HB]. unfold from_event_end. destruct (o_ev out) as [|e'|e'] eqn:EO; try exact HB.
          pose proof (B e' eq_refl) as ->. destruct (is_end e) eqn:EE; [|exact HB]. specialize (EN eq_refl). discriminate EN. }
        destruct elem eqn:EL.
        2:{ destruct (OM eq_refl) as [OS _]. rewrite OS in H. apply Stop. exact H. }
        assert (More : within m (length vals1 + 2) ->
          Ok (from_event (o_ev out) (o_any out), (vals1, KNext, Some (KAt d), h1)) = @Ok kind _ r ->
          chandled k e (o_ev out) (o_any out) r).
        { intros W2 [= <-]. destruct (o_ev out) as [|e'|e'] eqn:EO; cbn [from_event].
          - cbn. split; [reflexivity|split; [reflexivity|right]]. auto.
          - cbn. split; [reflexivity|split; [reflexivity|right]]. auto.
          - pose proof (B e' eq_refl) as ->. destruct (is_tag e) eqn:TG; cbn [orb].
            + cbn. split; [exact EL|]. split; [reflexivity|]. split; [reflexivity|]. split; [reflexivity|]. left. split; [exact TG|].
              split; [|exact W2]. destruct AR as [AD|(_ & e1 & E & _)]; [exact AD|congruence].
            + destruct (is_end e) eqn:EE; [specialize (EN eq_refl); discriminate EN|].
              cbn. split; [reflexivity|split; [reflexivity|right]]. split; [congruence|exact CA]. }
        destruct (m_occ m) eqn:OC; try (apply Stop; exact H).
        + elim (ms_occ _ _ SM OC).
        + assert (CN : cap m = None) by (unfold cap; rewrite OC; reflexivity).
          destruct (m_max m); [apply More; [apply cap_free; exact CN|exact H]|].
          destruct (Nat.ltb _ _); [apply More; [apply cap_free; exact CN|exact H]|apply Stop; exact H].
        + destruct (m_max m) as [|mx] eqn:MX.
          * apply More; [|exact H]. intros c C. apply cap_static in C. destruct C as (_ & C & _). congruence.
          * destruct (Nat.ltb_spec (length vals1) (mx - 1)) as [LL|_]; [|apply Stop; exact H].
            apply More; [|exact H]. intros c C. apply cap_static in C. destruct C as (_ & C & _). rewrite MX in C. injection C as <-. lia.
    Qed.

    Lemma cbreak_ok k e ev any a de x hs : chandled k e ev any (HBreak de x, hs) -> back ev e ->
      (is_end e = true -> ev = DNone \/ ev = DContinue e) ->
      step_ok (crest k) e (content_end elem m a hs de x).
    Proof.
      destruct hs as [[[vals st] fb] h]. intros (-> & -> & [(EL & -> & -> & W)|(EV & R)]) B EN.
      - destruct (OM EL) as [_ (mx & MX)]. unfold content_end, need_done. rewrite EL, MX. cbn [negb andb].
        unfold cdes_finish. cbn [cd_vals cd_state cd_attrs content_finish_state obind].
        pose proof (cfinish_quiet vals h W) as Q. destruct (content_finish_vals m vals h) as [[vs h2]| |]; [|exact I|congruence].
        cbn. split; [exact B|split; [|exact I]]. intros EE. destruct (EN EE); eauto.
      - unfold content_end.
        assert (G : forall st, cat k vals st \/ (any = false /\ exists e, ev = DBreak e /\ is_tag e = true) ->
          step_ok (crest k) e (Ok (DOut (@ADes (A * list V) _ (CDes a vals st)) ev any, h))).
        { intros st' R'. cbn -[crest]. split; [exact B|split; [auto|exact R']]. }
        destruct (match fb with Some f => f | None => st end) as [| |d| |] eqn:SE;
          destruct (need_done elem m) eqn:ND; try (apply G; exact R).
        destruct R as [[]|R].
        (* [KDone] and doomed *)
        destruct R as (-> & e1 & -> & T1). unfold cdes_finish. cbn [cd_vals cd_state cd_attrs content_finish_state obind].
        unfold need_done in ND. apply Bool.andb_true_iff in ND. destruct ND as [ND _]. apply Bool.negb_true_iff in ND.
        destruct (OM ND) as [OS _]. unfold content_finish_vals. rewrite OS.
        destruct (m_default m) as [df|] eqn:DF.
        + pose proof (ms_default _ _ SM df DF h) as Q. unfold finish_default. destruct (hd_error vals).
          * cbn. split; [exact B|split; [|exact I]]. intros EE. specialize (EV EE). discriminate.
          * destruct (df h) as [[w h']| |]; [|exact I|congruence].
            cbn. split; [exact B|split; [|exact I]]. intros EE. specialize (EV EE). discriminate.
        + destruct vals; [exact I|]. cbn. split; [exact B|split; [|exact I]]. intros EE. specialize (EV EE). discriminate.
    Qed.

    Lemma cinit_ok k h e : k < n -> is_end e = false ->
      match de_init (m_deser m) h e with
      | Panic => False
      | Err _ => True
      | Ok (o, _) => back (o_ev o) e /\
          match o_art o with
          | ANone => is_tag e = true -> o_ev o = DContinue e
          | AData _ => is_tag e = true /\ o_ev o = DNone /\ ~ late (m_deser m)
          | ADes d => is_tag e = true /\ o_ev o = DNone /\ live (m_deser m) k d
          end
      end.
    Proof.
      intros K EN. pose proof (live_init _ _ _ _ _ (ms_init _ _ SM k h e K EN)) as I0.
      unfold start_ok in I0. destruct (de_init (m_deser m) h e) as [[o h']| |] eqn:DI; auto.
      destruct I0 as [B I0]. split; [exact B|]. destruct (is_tag e) eqn:TG.
      - destruct (o_art o) as [|v|d] eqn:AO; auto.
        + destruct I0; auto.
        + split; [reflexivity|]. split; [exact I0|]. intros [LI _]. destruct (LI _ _ _ _ _ DI AO) as (e' & _ & X). congruence.
      - rewrite I0. discriminate.
    Qed.

    (** A value asked to start; nothing goes on after it. *)
    Lemma cstart_ok k a vals fb h e (go : event -> chs -> dresult (A * list V) cdes) : k < n -> is_end e = false -> copen k vals fb ->
      step_ok (crest k) e (let* (out, h1) := de_init (m_deser m) h e in
        let* (ho, hs') := content_handle elem m vals out fb h1 in
        match ho with
        | HContinue e' _ => go e' hs'
        | HBreak de x => content_end elem m a hs' de x
        end).
    Proof.
      intros K EN OP. pose proof (cinit_ok k h e K EN) as CI.
      destruct (de_init (m_deser m) h e) as [[o h1]| |]; [|exact I|elim CI]. cbn [obind]. destruct CI as [B CI].
      destruct (chandle_ok k vals o fb h1 e B) as [Q H]; [|exact OP|].
      { destruct (o_art o); auto.
        - destruct CI as (_ & EV & NL). split; [auto|]. intros L. elim NL. exact L.
        - destruct CI as (_ & EV & AL). auto. }
      destruct (content_handle elem m vals o fb h1) as [[ho hs]| |] eqn:CH; [|exact I|congruence]. cbn [obind].
      specialize (H _ eq_refl). destruct ho as [e' x|de x].
      - exfalso. destruct hs as [[[vs st] fb'] h']. destruct H as (EL & -> & EV & ST & _).
        destruct (o_art o) eqn:AO.
        + unfold content_handle in CH. rewrite AO, EL, EV in CH. cbn [from_event_end] in CH. rewrite EN in CH. discriminate CH.
        + destruct CI as (_ & X & _). congruence.
        + destruct CI as (_ & X & _). congruence.
      - eapply cbreak_ok; eauto. congruence.
    Qed.

    Lemma cdes_next_ok k d h e : k < n -> crest (S k) d -> step_ok (crest k) e (cdes_next elem m d h e).
    Proof.
      intros K R. unfold cdes_next, content_fuel. remember 3 as f3 eqn:F3. unfold crest in R.
      assert (FE : forall vals h, within m (length vals) ->
        step_ok (crest k) e (let* (vs, h1) := content_finish_vals m vals h in
          Ok (DOut (AData (cd_attrs d, vs)) (if elem then DNone else DContinue e) false, h1))).
      { intros vals h' W. pose proof (cfinish_quiet vals h' W) as Q.
        destruct (content_finish_vals m vals h') as [[v h1]| |]; [|exact I|congruence].
        cbn. destruct elem; (split; [auto with frame|split; [eauto|exact I]]). }
      cbn [content_loop]. destruct (cd_state d) as [| |c| |] eqn:ST; try (elim R; fail); cbn [cat] in R.
      - destruct (is_end e) eqn:EE; [apply FE; eapply within_less; [|exact R]; lia|].
        cbn [get_or_insert]. apply (cstart_ok k (cd_attrs d) (cd_vals d) (Some KInit) h e (fun e' hs' => content_loop elem m f3 (cd_attrs d) hs' e')); auto.
      - destruct (is_end e) eqn:EE; [apply FE; eapply within_less; [|exact R]; lia|].
        cbn [get_or_insert]. apply (cstart_ok k (cd_attrs d) (cd_vals d) (Some KNext) h e (fun e' hs' => content_loop elem m f3 (cd_attrs d) hs' e')); auto.
      - destruct R as [AL W]. pose proof (live_step _ _ _ h e AL) as SO.
        destruct (de_next (m_deser m) c h e) as [[o h1]| |] eqn:DN; [|exact I|elim SO]. cbn [obind].
        destruct SO as (B & EN & ART).
        destruct (chandle_ok k (cd_vals d) o None h1 e B) as [Q H]; [|exact W|].
        { destruct (o_art o) eqn:AO; [elim ART| |].
          - split; [intros EE; destruct (EN EE) as [?|[? _]]; auto|]. intros [_ L]. destruct (L _ _ _ _ _ _ (proj2 AL) DN AO) as (e' & E1 & E2).
            pose proof (B e') as X. rewrite E2 in X. specialize (X eq_refl). subst e'. auto.
          - split; [|exact ART]. intros EE. destruct (EN EE) as [?|[_ (w & X)]]; [auto|discriminate X]. }
        destruct (content_handle elem m (cd_vals d) o None h1) as [[ho hs]| |] eqn:CH; [|exact I|congruence]. cbn [obind].
        specialize (H _ eq_refl). destruct ho as [e' x|de x].
        + destruct hs as [[[vs st] fb'] h']. destruct H as (EL & -> & EV & -> & [(TG & OP)|(EE & -> & W')]).
          * assert (EE : is_end e = false) by (destruct e; cbn in *; congruence).
            rewrite F3. clear F3 f3. remember 2 as f2. cbn [content_loop]. rewrite EE.
            apply (cstart_ok k (cd_attrs d) vs (get_or_insert fb' KNext) h' e (fun e' hs' => content_loop elem m f2 (cd_attrs d) hs' e')); auto.
            destruct fb' as [[| |c'| |]|]; exact OP.
          * rewrite F3. cbn [content_loop]. rewrite EE. apply FE. exact W'.
        + eapply cbreak_ok; eauto. intros EE. destruct (EN EE) as [?|[? _]]; auto.
    Qed.

    Notation des := (cdes_deser from_start elem no_attrs m).

    Lemma crest_less k d : crest (S k) d -> crest k d.
    Proof.
      unfold crest, cat. destruct (cd_state d); auto. intros [AL W]. split; [apply live_less; exact AL|exact W].
    Qed.
    Lemma cdes_alive k d : k <= n -> crest k d -> alive des k d.
    Proof.
      intros K. revert d. revert k K. apply alive_inv; cbn [de_next de_finish cdes_deser].
      - intros k d h. apply crest_finish.
      - apply crest_less.
      - intros k d h e. apply cdes_next_ok.
    Qed.
    Lemma cnew_rest k a : crest k (cdes_new a).
    Proof. cbn. apply (within_less m _ 2); [lia|apply within_two]. Qed.

    Lemma cdes_element_start k h e : k <= n -> elem = true -> start_ok false (alive des k) e (de_init des h e).
    Proof.
      intros K EL. assert (IE : de_init des h e = cdes_init_element from_start m h e) by (cbn [de_init cdes_deser enum_deser seq_deser all_deser]; rewrite EL; reflexivity).
      rewrite IE. clear IE. unfold cdes_init_element. destruct e; try (cbn; auto with frame; fail).
      - pose proof (SQ h name attrs). destruct (from_start h name attrs) as [[a h']| |]; [|exact I|congruence].
        cbn -[alive cdes_new]. split; [auto with frame|]. split; [reflexivity|]. apply cdes_alive; [exact K|apply cnew_rest].
      - pose proof (SQ h name attrs). destruct (from_start h name attrs) as [[a h']| |]; [|exact I|congruence].
        cbn [obind]. pose proof (crest_finish 0 _ h' (cnew_rest 0 a)) as Q.
        destruct (cdes_finish m (cdes_new a) h') as [[v h'']| |]; [|exact I|congruence]. cbn. auto with frame.
    Qed.

    Lemma cdes_group_start k h e : k < n -> is_end e = false -> elem = false ->
      start_ok true (alive des k) e (de_init des h e).
    Proof.
      intros K EN EL. pose proof cstore_quiet as CQ. pose proof cfinish_quiet as FQ. pose proof cstore_length as CL.
      assert (CA : forall d, crest k d -> alive des k d) by (intros d; apply cdes_alive; lia).
      assert (IE : de_init des h e = cdes_init_group elem no_attrs m h e) by (cbn [de_init cdes_deser enum_deser seq_deser all_deser]; rewrite EL; reflexivity).
      rewrite IE. clear IE. unfold cdes_init_group.
      pose proof (cdes_next_ok k _ h e K (cnew_rest (S k) no_attrs)) as N.
      destruct (OM EL) as [OS (mx & MX)].
      unfold cdes_next, content_fuel in *. cbn [cdes_new cd_attrs cd_vals cd_state] in *.
      remember 3 as f3. cbn [content_loop get_or_insert] in *. rewrite EN in *.
      pose proof (cinit_ok k h e K EN) as CI.
      destruct (de_init (m_deser m) h e) as [[o h1]| |]; [|exact I|elim CI]. cbn [obind] in *.
      destruct CI as [B CI]. unfold content_handle in *. rewrite OS in *. destruct (o_art o) as [|v|d].
      - assert (ND : need_done elem m = true) by (unfold need_done; rewrite EL, MX; reflexivity).
        assert (G : start_ok true (alive des k) e (let* (out, h') := content_end elem m no_attrs ([], @KInit D, @None cst, h1) (o_ev o) (o_any o) in
          Ok (DOut (match o_art out with
             | ADes d => match cd_state d with KInit => ANone | _ => ADes d end
             | art => art
             end) (o_ev out) (o_any out), h'))).
        { unfold content_end. rewrite ND. cbn. split; [exact B|]. destruct (is_tag e); auto. }
        clear N. destruct elem; [discriminate|]. destruct (_ || _)%bool; cbn [obind]; exact G.
      - clear N. destruct CI as (TG & EV & _). cbn [content_finish_state obind].
        destruct elem; [discriminate|]. destruct (content_store m [] v) as [vs| |] eqn:CS; cbn [obind]; [|exact I|elim (CQ [] v CS)].
        unfold content_end, need_done. rewrite MX. cbn [negb andb].
        assert (W : within m (length vs)). { apply CL in CS. eapply within_less; [|apply within_two]. cbn in CS. lia. }
        unfold cdes_finish. cbn [cd_vals cd_state cd_attrs content_finish_state obind].
        pose proof (FQ vs h1 W) as Q. destruct (content_finish_vals m vs h1) as [[ws h2]| |]; [|exact I|congruence].
        cbn. rewrite TG, EV. split; [auto with frame|reflexivity].
      - clear N. destruct CI as (TG & EV & AL). cbn [content_finish_state obind].
        destruct elem; [discriminate|]. cbn [obind].
        unfold content_end, need_done. rewrite MX. cbn [negb andb]. cbn -[alive]. rewrite TG, EV.
        split; [auto with frame|]. split; [reflexivity|]. apply CA. cbn. split; [exact AL|].
        apply (within_less m _ 2); [lia|apply within_two].
    Qed.

    Lemma cdes_late : elem = false -> late (m_deser m) -> late des.
    Proof.
      intros EL [LI LN]. destruct (OM EL) as [OS (mx & MX)].
      set (rst := fun st : cst => forall c, st = KAt c -> reach (m_deser m) c).
      assert (ND0 : forall f (a : A) vals st fb h e o h' d, rst st -> (forall x, fb = Some x -> rst x) ->
        content_loop elem m f a (vals, st, fb, h) e = Ok (o, h') -> o_art o = ADes d ->
        cd_state d <> KDone /\ rst (cd_state d)).
      { assert (CE : forall (a : A) vals st fb h ev x o h' d, rst st -> (forall x, fb = Some x -> rst x) ->
          content_end elem m a (vals, st, fb, h) ev x = Ok (o, h') -> o_art o = ADes d ->
          cd_state d <> KDone /\ rst (cd_state d)).
        { intros a vals st fb h ev x o h' d R1 R2 H AO. unfold content_end, need_done in H. rewrite EL, MX in H. cbn [negb andb] in H.
          assert (R3 : rst (match fb with Some f => f | None => st end)) by (destruct fb; auto).
          destruct (match fb with Some f => f | None => st end) eqn:SE;
            try (injection H as <- _; cbn in AO; injection AO as <-; split; [discriminate|exact R3]).
          bind H. injection H as <- _. discriminate AO. }
        assert (R0 : forall st, (forall c, st <> KAt c) -> rst st) by (intros st N c E; elim (N c E)).
        induction f as [|f IH]; intros a vals st fb h e o h' d R1 R2 H AO; [discriminate|]. cbn [content_loop] in H.
        assert (HD : forall (r : dresult V D) vals fb, (forall x, fb = Some x -> rst x) ->
         (forall o1 h1 c, r = Ok (o1, h1) -> o_art o1 = ADes c -> reach (m_deser m) c) -> (let* (out, h1) := r in
         let* (ho, hs') := content_handle elem m vals out fb h1 in
         match ho with
         | HContinue e' _ => content_loop elem m f a hs' e'
         | HBreak de x => content_end elem m a hs' de x
         end) = Ok (o, h') -> cd_state d <> KDone /\ rst (cd_state d)).
        { intros r vals' fb' RF RR H'. bind H'. bind H'. destruct b0 as [[[vs st'] fb2] h2].
          assert (G : rst st' /\ forall x, fb2 = Some x -> rst x).
          { unfold content_handle in E0. rewrite EL, OS in E0.
            assert (BK : rst (match fb' with Some f => f | None => KNext end)) by (destruct fb'; [auto|apply R0; discriminate]).
            destruct (o_art a0) as [|w|c] eqn:AA.
            - destruct (_ || _)%bool; injection E0 as <- <- <- <- <-.
              + split; [exact BK|discriminate].
              + split; [apply R0; discriminate|exact RF].
            - bind E0. bind E0. injection E0 as <- <- <- <- <-. split; [apply R0; discriminate|discriminate].
            - bind E0. injection E0 as <- <- <- <- <-. split; [|discriminate]. intros c' [= <-]. eapply RR; eauto. }
          destruct G as [G1 G2]. destruct a1; [eapply IH; eauto|eapply CE; eauto]. }
        assert (GI : forall x, get_or_insert fb st = Some x -> rst x).
        { intros x GX. destruct fb; cbn in GX; injection GX as <-; auto. }
        destruct st as [| |c| |]; try discriminate H.
        - destruct (is_end e); [bind H; injection H as <- _; discriminate AO|]. eapply HD; [exact GI| |exact H].
          intros o1 h1 c I1 AI. eapply reach_init; eauto.
        - destruct (is_end e); [bind H; injection H as <- _; discriminate AO|]. eapply HD; [exact GI| |exact H].
          intros o1 h1 c I1 AI. eapply reach_init; eauto.
        - eapply HD; [exact R2| |exact H]. intros o1 h1 c1 I1 AI. eapply reach_next; [apply R1; reflexivity|eauto|eauto].
        - destruct (is_end e); [bind H; injection H as <- _; discriminate AO|]. exact (CE _ _ _ _ _ _ _ _ _ _ R1 R2 H AO). }
      assert (ND : forall d, reach des d -> cd_state d <> KDone /\ rst (cd_state d)).
      { intros d R. induction R as [h e o h' d H AO|d0 h e o h' d _ [_ IH] H AO]; cbn [de_init de_next cdes_deser] in H.
        - rewrite EL in H. unfold cdes_init_group in H. bind H. injection H as <- <-. cbn [o_art] in AO.
          unfold cdes_next in E. rewrite EL in ND0. destruct (o_art a) as [|w|d'] eqn:AA; try discriminate.
          assert (N : cd_state d' <> KDone /\ rst (cd_state d')).
          { eapply ND0; [| |exact E|exact AA]; [intros c X|]; discriminate. }
          destruct (cd_state d') eqn:SD; try discriminate; injection AO as <-; rewrite SD; exact N.
        - unfold cdes_next in H. eapply ND0; [exact IH| |exact H|exact AO]. discriminate. }
      assert (HD : forall (r : dresult V D) vals fb (a : A) f o h' v,
        (forall o1 h1 w, r = Ok (o1, h1) -> o_art o1 = AData w -> exists e', is_end e' = true /\ o_ev o1 = DContinue e') ->
        (let* (out, h1) := r in
         let* (ho, hs') := content_handle elem m vals out fb h1 in
         match ho with
         | HContinue e' _ => content_loop elem m f a hs' e'
         | HBreak de x => content_end elem m a hs' de x
         end) = Ok (o, h') ->
        (fb = None \/ exists st, fb = Some st /\ st <> KDone) ->
        (match o_art o with AData v' => v' = v | _ => False end) -> exists e', is_end e' = true /\ o_ev o = DContinue e').
      { intros r vals fb a f o h' v LR H FB AO. bind H. bind H.
        unfold content_handle in E0. rewrite EL, OS in E0. 
        assert (CE : forall vals st fb' h0 ev x, (match fb' with Some f => f | None => st end) <> KDone ->
          content_end elem m a (vals, st, fb', h0) ev x = Ok (o, h') -> exists e', is_end e' = true /\ o_ev o = DContinue e').
        { intros vals' st fb' h0 ev x NK CE. unfold content_end in CE.
          destruct (match fb' with Some f => f | None => st end); try congruence;
            destruct (need_done elem m); injection CE as <- _; elim AO. }
        assert (BK : (match fb with Some f => f | None => KNext end) <> KDone).
        { destruct FB as [->|(st & -> & N)]; [discriminate|exact N]. }
        assert (BI : (match fb with Some f => f | None => KInit end) <> KDone).
        { destruct FB as [->|(st & -> & N)]; [discriminate|exact N]. }
        destruct (o_art a0) as [|w|d] eqn:AA.
        - destruct (_ || _)%bool; injection E0 as <- <-; eapply CE; try exact H; auto.
        - bind E0. bind E0. injection E0 as <- <-. destruct (LR _ _ _ E AA) as (e' & EE & EV).
          unfold content_end in H. destruct (need_done elem m).
          + bind H. injection H as <- _. cbn. eauto.
          + injection H as <- _. elim AO.
        - bind E0. injection E0 as <- <-. eapply CE; try exact H. discriminate. }
      assert (LO : forall f (a : A) vals st h e o h' v, st <> KDone -> (forall c, st = KAt c -> reach (m_deser m) c) ->
        content_loop elem m f a (vals, st, None, h) e = Ok (o, h') -> o_art o = AData v ->
        exists e', is_end e' = true /\ o_ev o = DContinue e').
      { intros [|f] a vals st h e o h' v NK RC H AO; [discriminate|]. cbn [content_loop] in H.
        assert (FE : (let* (vs, h1) := content_finish_vals m vals h in
          Ok (DOut (AData (a, vs)) (if elem then DNone else DContinue e) false, h1)) = Ok (o, h') -> is_end e = true ->
          exists e', is_end e' = true /\ o_ev o = DContinue e').
        { intros X EE. bind X. injection X as <- _. rewrite EL. cbn. eauto. }
        destruct st as [| |d| |]; try congruence.
        - destruct (is_end e) eqn:EE; [auto|]. cbn [get_or_insert] in H.
          eapply HD; [|exact H|right; eexists; split; [reflexivity|discriminate]|rewrite AO; reflexivity].
          intros o1 h1 w. apply LI.
        - destruct (is_end e) eqn:EE; [auto|]. cbn [get_or_insert] in H.
          eapply HD; [|exact H|right; eexists; split; [reflexivity|discriminate]|rewrite AO; reflexivity].
          intros o1 h1 w. apply LI.
        - eapply HD; [|exact H|left; reflexivity|rewrite AO; reflexivity].
          intros o1 h1 w. apply LN. apply RC. reflexivity. }
      split.
      - cbn [de_init cdes_deser]. rewrite EL. unfold cdes_init_group. intros h e o h' v H AD. bind H. injection H as <- <-.
        unfold cdes_next in E. rewrite EL in LO. cbn [o_art] in AD. destruct (o_art a) as [|w|d] eqn:AA.
        + discriminate.
        + refine (LO _ _ _ _ _ _ _ _ _ _ _ E AA); discriminate.
        + destruct (cd_state d); discriminate.
      - cbn [de_next cdes_deser]. intros d h e o h' v R H. unfold cdes_next in H. exact (LO _ _ _ _ _ _ _ _ _ (proj1 (ND d R)) (proj2 (ND d R)) H).
    Qed.
  End Content.

  (** ** Elements in any order *)
  Section All.
    Variables (elem : bool) (no_attrs : A) (allow_any : bool) (ms : list (member V D)) (n : nat).
    Hypothesis MS : Forall (member_safe n) ms.
    Hypothesis CN : forall m, In m ms -> cap m = None.

    Notation lst := (lstate (D:=D)).

    Definition lat (k : nat) (st : lst) : Prop :=
      match st with
      | LInit | LNext => True
      | LAt i d => exists m, nth_error ms i = Some m /\ alive (m_deser m) k d
      | LUnknown => False
      end.
    Definition lrest (k : nat) (d : ldes (V:=V) (D:=D) (A:=A)) : Prop := lat k (ld_state d).

    Lemma all_finish_quiet fields h : quiet (finish_fields ms fields h).
    Proof.
      eapply finish_fields_quiet; [exact MS|]. intros j m M. apply cap_free. apply CN. eapply nth_error_In; eauto.
    Qed.
    Lemma store_at_quiet i m v fields : nth_error ms i = Some m -> quiet (store_at ms i v fields).
    Proof.
      intros M. unfold store_at. rewrite M. apply quiet_bind; [|intros; auto with safe].
      eapply store_quiet. eapply safe_at; eauto.
    Qed.
    Lemma lflush_quiet k st fields h : lat k st -> quiet (all_finish_state ms fields st h).
    Proof.
      destruct st as [| |i d|]; cbn; auto with safe. intros (m & M & AL). rewrite M.
      apply quiet_bind; [eapply alive_finish; eauto|]. intros [v h'] _. apply quiet_bind; [eapply store_at_quiet; eauto|auto with safe].
    Qed.

    Definition keeps (k : nat) (fb : option lst) : Prop := match fb with Some st => lat k st | None => True end.
    Lemma lflush_opt k (fb : option lst) fields h : keeps k fb ->
      quiet (match fb with Some st => all_finish_state ms fields st h | None => Ok (fields, h) end).
    Proof. destruct fb; cbn; [apply lflush_quiet|auto with safe]. Qed.

    (** After an element was asked to start. *)
    Definition lstarted (k : nat) (e : event) (r : hout * lhstate (V:=V) (D:=D)) : Prop :=
      match r with
      | (HBreak de _, (_, st, fb, _)) => de = DNone /\ st = LNext /\ keeps k fb /\ fb <> Some LInit
      | _ => False
      end.

    Lemma lonce_ok k i m (r : dresult V D) fields fb e : nth_error ms i = Some m -> is_tag e = true -> keeps k fb ->
      match r with
      | Panic => False
      | Err _ => True
      | Ok (o, _) => back (o_ev o) e /\
          match o_art o with
          | ANone => o_ev o = DContinue e /\ is_group m = true
          | AData _ => o_ev o = DNone
          | ADes d => o_ev o = DNone /\ alive (m_deser m) k d
          end
      end ->
      match (let* (out, h1) := r in all_handle ms i m fields out fb h1) with
      | Panic => False
      | Err _ => True
      | Ok res => lstarted k e res \/ (is_group m = true /\ exists x h, res = (HContinue e x, (fields, LNext, fb, h)))
      end.
    Proof.
      intros M TG KF ST. destruct r as [[o h1]| |]; [|exact I|elim ST]. cbn [obind]. destruct ST as [B ST].
      unfold all_handle. destruct (o_art o) as [|v|d].
      - destruct ST as [EV G]. pose proof G as G'. unfold is_group in G'. destruct (m_kind m); try discriminate G'.
        rewrite EV. cbn [from_event]. rewrite TG. right. cbn [orb]. eauto.
      - pose proof (lflush_opt k fb fields h1 KF) as Q.
        destruct (match fb with Some st => _ | None => _ end) as [[f1 h2]| |]; [|exact I|congruence]. cbn [obind].
        pose proof (store_at_quiet i m v f1 M) as Q2. destruct (store_at ms i v f1); [|exact I|congruence].
        cbn [obind]. rewrite ST. left. cbn. repeat split; auto. discriminate.
      - destruct ST as [EV AL]. pose proof (lflush_opt k fb fields h1 KF) as Q.
        destruct (match fb with Some st => _ | None => _ end) as [[f1 h2]| |]; [|exact I|congruence]. cbn [obind].
        rewrite EV. left. cbn. split; [reflexivity|split; [reflexivity|]]. split; [exists m; auto|discriminate].
    Qed.

    Lemma linit_ok k m h e : member_safe n m -> k < n -> is_tag e = true ->
      match de_init (m_deser m) h e with
      | Panic => False
      | Err _ => True
      | Ok (o, _) => back (o_ev o) e /\
          match o_art o with
          | ANone => o_ev o = DContinue e /\ is_group m = true
          | AData _ => o_ev o = DNone
          | ADes d => o_ev o = DNone /\ alive (m_deser m) k d
          end
      end.
    Proof.
      intros SM K TG. assert (EN : is_end e = false) by (destruct e; cbn in *; congruence).
      pose proof (ms_init _ _ SM k h e K EN) as I0.
      unfold start_ok in I0. destruct (de_init (m_deser m) h e) as [[o h']| |] eqn:DI; auto. rewrite TG in I0.
      destruct I0 as [B I0]. split; [exact B|]. destruct (o_art o) as [|v|d] eqn:AO; auto. destruct I0; auto.
    Qed.

    Lemma lgroups_ok k e : k < n -> is_tag e = true ->
      forall l i any fields fb h, keeps k fb ->
      (forall j m, nth_error l j = Some m -> nth_error ms (i + j) = Some m) ->
      match all_groups ms i l e any fields fb h with
      | Panic => False
      | Err _ => True
      | Ok (inl r) => lstarted k e r
      | Ok (inr (e', _, (fields', fb', _))) => e' = e /\ fields' = fields /\ fb' = fb
      end.
    Proof.
      intros K TG. induction l as [|m l IH]; intros i any fields fb h KF NT; [cbn; auto|]. cbn [all_groups].
      assert (M : nth_error ms i = Some m) by (rewrite <- (NT 0 m eq_refl); f_equal; lia).
      assert (NT' : forall j m, nth_error l j = Some m -> nth_error ms (S i + j) = Some m).
      { intros j m' J. rewrite <- (NT (S j) m' J). f_equal. lia. }
      destruct (sel_group (m_kind m)) eqn:SL; [|apply IH; auto].
      pose proof (lonce_ok k i m _ fields fb e M TG KF (linit_ok k m h e (safe_at ms n MS _ _ M) K TG)) as ON.
      destruct (de_init (m_deser m) h e) as [[o h1]| |]; [|exact I|elim ON]. cbn [obind] in *.
      destruct (all_handle ms i m fields o fb h1) as [[ho hs]| |]; [|exact I|elim ON].
      cbn [obind]. destruct ON as [TK|(G & x & h' & E)].
      - destruct ho; [elim TK|exact TK].
      - injection E as -> ->. apply IH; auto.
    Qed.

    Lemma lfind_ok k e fields st h : k < n -> lat k st ->
      match all_find allow_any ms e fields (Some st) h with
      | Panic => False
      | Err _ => True
      | Ok r => (is_tag e = true /\ lstarted k e r) \/
                (exists x h', r = (HBreak (DContinue e) x, (fields, st, None, h')))
      end.
    Proof.
      intros K LS. unfold all_find. rewrite (no_text ms n MS). destruct (is_tag e) eqn:TG.
      - destruct (find_tag 0 ms e h) as [[i m]|] eqn:FT.
        + apply (find_tag_in ms) in FT; [|intros q x Q; exact Q]. destruct FT as [M KE].
          pose proof (lonce_ok k i m _ fields (Some st) e M TG LS (linit_ok k m h e (safe_at ms n MS _ _ M) K TG)) as ON.
          destruct (let* (out, h1) := de_init (m_deser m) h e in all_handle ms i m fields out (Some st) h1); auto.
          destruct ON as [L|(G & _)]; [auto|]. unfold is_group in G. rewrite KE in G. discriminate G.
        + pose proof (lgroups_ok k e K TG ms 0 false fields (Some st) h LS (fun j m J => J)) as TR.
          destruct (all_groups ms 0 ms e false fields (Some st) h) as [[r|[[e1 any] [[f1 fb1] h1]]]| |]; [| |exact I|elim TR].
          * cbn [obind]. auto.
          * cbn [obind]. destruct TR as (-> & -> & ->). right. eexists. eexists. reflexivity.
      - right. eexists. eexists. reflexivity.
    Qed.

    Lemma all_next_ok k d h e : k < n -> lrest (S k) d -> step_ok (lrest k) e (all_next elem allow_any ms d h e).
    Proof.
      intros K R. unfold all_next, all_fuel. remember 3 as f3 eqn:F3. unfold lrest in R.
      assert (FE : forall fields h,
        step_ok (lrest k) e (let* (vals, h1) := finish_fields ms fields h in
          Ok (DOut (AData (ld_attrs d, vals)) (if elem then DNone else DContinue e) false, h1))).
      { intros fields h'. pose proof (all_finish_quiet fields h') as Q.
        destruct (finish_fields ms fields h') as [[v h1]| |]; [|exact I|congruence].
        cbn. destruct elem; (split; [auto with frame|split; [eauto|exact I]]). }
      assert (FD : forall f fields st h, lat k st -> is_end e = false ->
        step_ok (lrest k) e (let* (ho, hs') := all_find allow_any ms e fields (Some st) h in
          match ho with
          | HContinue e' _ => all_loop elem allow_any ms f (ld_attrs d) hs' e'
          | HBreak de x => all_end (ld_attrs d) hs' de x
          end)).
      { intros f fields st h' LS EE. pose proof (lfind_ok k e fields st h' K LS) as LF.
        destruct (all_find allow_any ms e fields (Some st) h') as [[ho hs]| |]; [|exact I|elim LF]. cbn [obind].
        destruct LF as [[TG L]|(x & h2 & [= -> ->])].
        - destruct hs as [[[f1 st1] fb1] h2]. destruct ho as [|de x]; [elim L|]. destruct L as (-> & -> & KF & _).
          cbn. split; [auto with frame|split; [congruence|left]]. destruct fb1; [exact KF|exact I].
        - cbn. split; [auto with frame|split; [congruence|left; exact LS]]. }
      cbn [all_loop]. destruct (ld_state d) as [| |i c|] eqn:ST; try (elim R; fail); cbn [get_or_insert].
      - destruct (is_end e) eqn:EE; [apply FE|apply FD; [exact I|reflexivity]].
      - destruct (is_end e) eqn:EE; [apply FE|apply FD; [exact I|reflexivity]].
      - destruct R as (m & M & AL). rewrite M. pose proof (alive_step _ _ _ h e AL) as SO.
        destruct (de_next (m_deser m) c h e) as [[o h1]| |]; [|exact I|elim SO]. cbn [obind].
        destruct SO as (B & EN & ART). unfold all_handle. destruct (o_art o) as [|v|c'] eqn:AO; [elim ART| |].
        + cbn [obind]. pose proof (store_at_quiet i m v (ld_fields d) M) as Q.
          destruct (store_at ms i v (ld_fields d)) as [f2| |]; [|exact I|congruence]. cbn [obind].
          destruct (o_ev o) as [|e'|e'] eqn:EO; cbn [from_event].
          * cbn. split; [auto with frame|split; [auto|left; exact I]].
          * cbn. split; [exact B|split; [|left; exact I]]. intros EE. destruct (EN EE) as [?|[? _]]; discriminate.
          * pose proof (B e' eq_refl) as ->. destruct (is_end e) eqn:EE.
            -- rewrite Bool.orb_true_r. rewrite F3. cbn [all_loop]. rewrite EE. apply FE.
            -- destruct (is_tag e) eqn:TG; cbn [orb].
               ++ rewrite F3. clear F3 f3. remember 2 as f2'. cbn [all_loop]. rewrite EE. cbn [get_or_insert]. apply FD; [exact I|reflexivity].
               ++ cbn. split; [exact B|split; [congruence|left; exact I]].
        + cbn [obind].
          assert (EV : is_end e = true -> o_ev o = DNone).
          { intros EE. destruct (EN EE) as [?|[_ (w & X)]]; [assumption|discriminate X]. }
          assert (HB : step_ok (lrest k) e (all_end (ld_attrs d) (ld_fields d, LNext, Some (LAt i c'), h1) (o_ev o) (o_any o))).
          { cbn -[lrest]. split; [exact B|split; [auto|]]. destruct ART as [A1|A1]; [left|right; exact A1]. exists m. auto. }
          destruct (o_ev o) as [|e'|e'] eqn:EO; cbn [from_event]; try exact HB.
          pose proof (B e' eq_refl) as ->. destruct (is_end e) eqn:EE; [discriminate (EV eq_refl)|].
          destruct (is_tag e) eqn:TG; cbn [orb]; [|exact HB].
          rewrite F3. clear F3 f3. remember 2 as f2'. cbn [all_loop]. rewrite EE. cbn [get_or_insert]. apply FD; [|reflexivity].
          exists m. split; [exact M|]. destruct ART as [A1|(_ & e1 & E1 & _)]; [exact A1|congruence].
    Qed.

    Notation des := (all_deser from_start elem no_attrs allow_any ms).

    Lemma lrest_less k d : lrest (S k) d -> lrest k d.
    Proof.
      unfold lrest, lat. destruct (ld_state d); auto. intros (m & M & AL). exists m. split; [exact M|apply alive_less; exact AL].
    Qed.
    Lemma lrest_finish k d h : lrest k d -> quiet (all_finish ms d h).
    Proof.
      intros R. unfold all_finish. apply quiet_bind; [eapply lflush_quiet; exact R|]. intros [f h1] _.
      apply quiet_bind; [apply all_finish_quiet|intros [w h2] _; auto with safe].
    Qed.
    Lemma all_alive k d : k <= n -> lrest k d -> alive des k d.
    Proof.
      intros K. revert d. revert k K. apply alive_inv; cbn [de_next de_finish all_deser].
      - intros k d h. apply lrest_finish.
      - apply lrest_less.
      - intros k d h e. apply all_next_ok.
    Qed.

    Lemma all_element_start k h e : k <= n -> elem = true -> start_ok false (alive des k) e (de_init des h e).
    Proof.
      intros K EL. assert (IE : de_init des h e = all_init_element from_start ms h e) by (cbn [de_init all_deser]; rewrite EL; reflexivity).
      rewrite IE. clear IE. unfold all_init_element. destruct e; try (cbn; auto with frame; fail).
      - pose proof (SQ h name attrs). destruct (from_start h name attrs) as [[a h']| |]; [|exact I|congruence].
        cbn -[alive all_new]. split; [auto with frame|]. split; [reflexivity|]. apply all_alive; [exact K|exact I].
      - pose proof (SQ h name attrs). destruct (from_start h name attrs) as [[a h']| |]; [|exact I|congruence].
        cbn [obind]. pose proof (lrest_finish 0 (all_new ms a) h' I) as Q.
        destruct (all_finish ms (all_new ms a) h') as [[v h'']| |]; [|exact I|congruence]. cbn. auto with frame.
    Qed.

    Lemma all_group_start k h e : k < n -> is_end e = false -> elem = false ->
      start_ok true (alive des k) e (de_init des h e).
    Proof.
      intros K EN EL.
      assert (IE : de_init des h e = all_init_group elem no_attrs allow_any ms h e) by (cbn [de_init all_deser]; rewrite EL; reflexivity).
      rewrite IE. clear IE. unfold all_init_group, all_next, all_fuel. remember 3 as f3.
      cbn [all_new ld_fields ld_state ld_attrs all_loop get_or_insert]. rewrite EN.
      pose proof (lfind_ok k e (no_fields ms) LInit h K I) as LF.
      destruct (all_find allow_any ms e (no_fields ms) (Some LInit) h) as [[ho hs]| |]; [|exact I|elim LF]. cbn [obind].
      destruct LF as [[TG L]|(x & h2 & [= -> ->])].
      - destruct hs as [[[f1 st1] fb1] h2]. destruct ho as [|de x]; [elim L|]. destruct L as (-> & -> & KF & NI).
        assert (AL : alive des k (LDes no_attrs f1 (match fb1 with Some f => f | None => LNext end))).
        { apply all_alive; [lia|]. destruct fb1; [exact KF|exact I]. }
        cbn -[alive]. rewrite TG. split; [auto with frame|].
        destruct fb1 as [[| |i d|]|]; try congruence; auto.
      - cbn. split; [auto with frame|]. destruct (is_tag e); auto.
    Qed.

    Lemma all_late : elem = false -> late des.
    Proof.
      intros EL.
      assert (LO : forall f (a : A) hs e o h' v, all_loop elem allow_any ms f a hs e = Ok (o, h') -> o_art o = AData v ->
        exists e', is_end e' = true /\ o_ev o = DContinue e').
      { induction f as [|f IH]; intros a [[[fields st] fb] h] e o h' v H AD; [discriminate|]. cbn [all_loop] in H.
        assert (GO : forall r, (let* (ho, hs') := r in
          match ho with
          | HContinue e' _ => all_loop elem allow_any ms f a hs' e'
          | HBreak de x => all_end a hs' de x
          end) = Ok (o, h') -> exists e', is_end e' = true /\ o_ev o = DContinue e').
        { intros r H'. bind H'. destruct a0 as [e1 x|de x]; [eapply IH; eauto|]. destruct b as [[[f2 st2] fb2] h2].
          cbn in H'. injection H' as <- _. discriminate AD. }
        destruct st as [| |i d|]; try discriminate H.
        - destruct (is_end e) eqn:EE; [|eapply GO; eauto]. bind H. injection H as <- _. rewrite EL. cbn. eauto.
        - destruct (is_end e) eqn:EE; [|eapply GO; eauto]. bind H. injection H as <- _. rewrite EL. cbn. eauto.
        - destruct (nth_error ms i); [|discriminate]. bind H. eapply GO; eauto. }
      split.
      - cbn [de_init all_deser]. rewrite EL. unfold all_init_group. intros h e o h' v H AD. bind H. injection H as <- <-.
        unfold all_next in E. rewrite EL in LO. cbn [o_art] in AD. destruct (o_art a) as [|w|d] eqn:AA.
        + discriminate.
        + exact (LO _ _ _ _ _ _ _ E AA).
        + destruct (ld_state d); discriminate.
      - cbn [de_next all_deser]. intros d h e o h' v _ H. exact (LO _ _ _ _ _ _ _ H).
    Qed.
  End All.

  (** ** Types without elements *)
  Lemma empty_start allow_any mixed k h e :
    start_ok false (alive (empty_deser from_start allow_any mixed) k) e (de_init (empty_deser from_start allow_any mixed) h e).
  Proof.
    assert (AL : forall k d, alive (empty_deser from_start allow_any mixed) k d).
    { intros k' d. apply (alive_inv _ k' (fun _ _ => True)); auto.
      - intros. apply quiet_ok.
      - intros k0 a h0 e0 _ _. cbn. unfold empty_next. destruct (is_end e0) eqn:EE; [cbn; auto with frame|].
        destruct (mixed && is_chars e0)%bool; cbn; (split; [auto with frame|split; [congruence|auto]]). }
    cbn [de_init empty_deser]. unfold empty_init. destruct e; try (cbn; auto with frame; fail);
      pose proof (SQ h name attrs); destruct (from_start h name attrs) as [[a h']| |]; try exact I; try congruence;
      cbn -[alive]; auto with frame.
  Qed.

  Section Texts.
    Variable charref : bytes -> option bytes.
    Variable utf8_ok : bytes -> bool.
    Context {T : Type}.
    Variable parse : dhelper -> bytes -> outcome kind (T * dhelper).
    Hypothesis PQ : forall h s, quiet (parse h s).
    Notation text := (content_deser charref utf8_ok parse).

    Lemma piece_quiet e r : piece charref utf8_ok e = Some r -> r <> Panic.
    Proof.
      destruct e; cbn; try discriminate; intros [= <-]; destruct (utf8_ok _); try discriminate;
        destruct (unescape _ _); discriminate.
    Qed.

    Lemma text_next_ok P d h e : (forall d, P d : Prop) -> step_ok P e (content_next charref utf8_ok parse d h e).
    Proof.
      intros AP. unfold content_next. destruct (piece charref utf8_ok e) as [r|] eqn:PE.
      - pose proof (piece_quiet e r PE) as Q. destruct r as [s| |]; [|exact I|congruence].
        assert (EE : is_end e = false) by (destruct e; (reflexivity || discriminate PE)).
        cbn. split; [auto with frame|split; [congruence|auto]].
      - destruct e; try (cbn; split; [auto with frame|split; [discriminate|auto]]; fail).
        unfold content_finish. pose proof (PQ h (trim_ascii d)) as Q. destruct (parse h (trim_ascii d)) as [[t h']| |]; [|exact I|congruence].
        cbn. split; [auto with frame|split; [auto|exact I]].
    Qed.
    Lemma text_alive k d : alive text k d.
    Proof.
      apply (alive_inv _ k (fun _ _ => True)); auto.
      - intros k0 d0 h _. apply PQ.
      - intros k0 d0 h e _ _. apply text_next_ok. auto.
    Qed.
    Lemma text_init_ok k h e : start_ok false (alive text k) e (de_init text h e).
    Proof.
      cbn [de_init content_deser]. unfold content_init. destruct e; try (cbn; auto with frame; fail).
      - cbn -[alive]. split; [auto with frame|]. split; [reflexivity|apply text_alive].
      - pose proof (PQ h "") as Q. destruct (parse h "") as [[t h']| |]; [|exact I|congruence]. cbn. auto with frame.
    Qed.

    Notation simple := (simple_deser from_start charref utf8_ok parse).
    Lemma simple_alive k d : snd d <> None -> alive simple k d.
    Proof.
      intros N. apply (alive_inv simple k (fun _ d => snd d <> None)); auto.
      - intros k0 [a [c|]] h X; [|elim X; reflexivity]. cbn. apply quiet_bind; [apply PQ|intros [t h'] _; auto with safe].
      - intros k0 [a [c|]] h e _ X; [|elim X; reflexivity]. cbn [de_next simple_deser simple_next]. unfold simple_handle.
        pose proof (text_next_ok (fun _ => True) c h e (fun _ => I)) as TN.
        change (de_next text c h e) with (content_next charref utf8_ok parse c h e).
        destruct (content_next charref utf8_ok parse c h e) as [[o h']| |]; [|exact I|elim TN].
        destruct TN as (B & EN & AR). cbn. split; [exact B|split].
        + intros EE. destruct (EN EE) as [?|[? (v & ->)]]; eauto.
        + destruct (o_art o); auto. left. discriminate.
    Qed.
    Lemma simple_start k h e : start_ok false (alive simple k) e (de_init simple h e).
    Proof.
      cbn [de_init simple_deser]. unfold simple_init. destruct e; try (cbn; auto with frame; fail).
      - pose proof (SQ h name attrs) as Q. destruct (from_start h name attrs) as [[a h']| |]; [|exact I|congruence].
        cbn -[alive]. split; [auto with frame|]. split; [reflexivity|]. apply simple_alive. discriminate.
      - pose proof (SQ h name attrs) as Q. destruct (from_start h name attrs) as [[a h']| |]; [|exact I|congruence].
        cbn [obind simple_next simple_handle de_init content_deser content_init].
        pose proof (PQ h' "") as Q'. unfold simple_handle, content_init. destruct (parse h' "") as [[t h'']| |]; [|exact I|congruence]. cbn. auto with frame.
    Qed.
  End Texts.
End Safe.
