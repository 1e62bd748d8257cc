(** The generated deserializers neither lose nor invent elements: what the values they
    return hold is what they took from the events. *)
From Coq Require Import Lia.
From Verif Require Import DeSpec GenModel GenSpec DocCountSpec GenFrameProofs.
Local Open Scope list_scope.

(** The elements an answer has taken from the event. *)
Definition taken (x : bytes) (ev : devent) (e : event) : nat :=
  match into_event ev with None => begins x e | Some _ => 0 end.

(** How the answer of a handler comes from the answer of a deserializer. *)
Definition hrel (ev : devent) (ho : hout) : Prop :=
  match ho with
  | HContinue e' y => ev = DContinue e' /\ y = false
  | HBreak de y => into_event de = into_event ev /\ y = false
  end.
Definition noend (ho : hout) : Prop :=
  match ho with HBreak (DContinue e) _ => is_end e = false | _ => True end.

Lemma taken_into x ev ev' e : into_event ev' = into_event ev -> taken x ev' e = taken x ev e.
Proof. unfold taken. intros ->. reflexivity. Qed.
Lemma into_into ev : into_event (into_break ev) = into_event ev.
Proof. destruct ev; reflexivity. Qed.
Lemma hrel_from ev : hrel ev (from_event ev false).
Proof. destruct ev as [| |e]; cbn; auto. destruct (_ || _); cbn; auto. Qed.
Lemma hrel_end ev : hrel ev (from_event_end ev false).
Proof. destruct ev as [| |e]; cbn; auto. destruct (is_end e); cbn; auto. Qed.
Lemma hrel_root ev : hrel ev (return_to_root ev false).
Proof. cbn. rewrite into_into. auto. Qed.
Lemma hrel_break ev : hrel ev (HBreak ev false).
Proof. cbn. auto. Qed.
Lemma noend_from ev : noend (from_event ev false).
Proof.
  destruct ev as [| |e]; cbn; auto. destruct (is_tag e || is_end e) eqn:E; cbn; auto.
  apply Bool.orb_false_iff in E. tauto.
Qed.
Lemma noend_from_end ev : noend (from_event_end ev false).
Proof. destruct ev as [| |e]; cbn; auto. destruct (is_end e) eqn:E; cbn; auto. Qed.
Lemma noend_root ev : noend (return_to_root ev false).
Proof. destruct ev; cbn; auto. Qed.
Global Hint Resolve hrel_from hrel_end hrel_root hrel_break noend_from noend_from_end noend_root : count.

Lemma total_app a b : total (a ++ b) = total a + total b.
Proof. unfold total. induction a; cbn; [reflexivity|]. rewrite IHa. lia. Qed.

Lemma occ_bounded {V D} (m : member V D) : m_occ m = OSingle \/ m_occ m = OOptional -> exists n, m_max m = Bounded n.
Proof.
  unfold m_occ, from_occurs. destruct (m_max m) as [|n]; [|eauto].
  destruct (m_min m) as [|[|]]; intros [|]; discriminate.
Qed.

Lemma check_tag_named x h e ns name : check_tag h e ns name = true -> begins x e = if String.eqb name x then 1 else 0.
Proof.
  assert (G : forall n, match ns with
                        | Some ns => match resolve_local_name (d_res h) n ns with Some l => String.eqb l name | None => false end
                        | None => String.eqb (local_name n) name
                        end = true -> local_name n = name).
  { intros n. destruct ns as [ns|].
    - unfold resolve_local_name.
      assert (L : snd (dh_resolve (d_res h) n true) = local_name n).
      { unfold dh_resolve, resolve, local_name. destruct (split_colon n) as [[p l]|]; reflexivity. }
      destruct (dh_resolve (d_res h) n true) as [[|u|u] l]; cbn in L; try discriminate; try (destruct (String.eqb _ ns); [|discriminate]);
        intros E; apply String.eqb_eq in E; congruence.
    - intros E. apply String.eqb_eq in E. exact E. }
  destruct e; try discriminate; intros E; cbn [begins]; rewrite (G _ E); reflexivity.
Qed.

Section Count.
  Variable x : bytes.
  Notation taken := (taken x).

  (** An artifact that stands for [k] elements. *)
  Definition art_ok {V D} (w : V -> nat) (wd : D -> nat -> Prop) (art : artifact V D) (k : nat) : Prop :=
    match art with ANone => False | AData v => w v = k | ADes d => wd d k end.
  (** Only a finished value comes with the end tag. *)
  Definition calm {V D} (o : dout V D) : Prop :=
    match o_art o with
    | AData _ => True
    | _ => match o_ev o with DContinue e => is_end e = false | _ => True end
    end.

  Definition init_ok {V D} (w : V -> nat) (wd : D -> nat -> Prop) (e : event) (o : dout V D) : Prop :=
    back (o_ev o) e /\ o_any o = false /\
    match o_art o with ANone => taken (o_ev o) e = 0 | art => art_ok w wd art (taken (o_ev o) e) end.
  Definition next_ok {V D} (w : V -> nat) (wd : D -> nat -> Prop) (e : event) (k : nat) (o : dout V D) : Prop :=
    back (o_ev o) e /\ o_any o = false /\ art_ok w wd (o_art o) (k + taken (o_ev o) e) /\ calm o.
  (** The deserializer of an element takes the tag of the element, which is not counted. *)
  Definition own_ok {V D} (w : V -> nat) (wd : D -> nat -> Prop) (e : event) (o : dout V D) : Prop :=
    back (o_ev o) e /\ o_any o = false /\
    match o_art o with
    | ANone => is_tag e = false /\ taken (o_ev o) e = 0
    | art => o_ev o = DNone /\ is_tag e = true /\ art_ok w wd art 0 /\
             (match e with EEmpty _ _ => match art with AData _ => True | _ => False end | _ => match art with ADes _ => True | _ => False end end)
    end.

  Record conserves {V D} (own : bool) (w : V -> nat) (wd : D -> nat -> Prop) (des : deser V D) : Prop := Conserves {
    c_init : forall h e o h', de_init des h e = Ok (o, h') -> if own then own_ok w wd e o else init_ok w wd e o;
    c_next : forall d k h e o h', wd d k -> de_next des d h e = Ok (o, h') -> next_ok w wd e k o;
    c_finish : forall d k h v h', wd d k -> de_finish des d h = Ok (v, h') -> w v = k
  }.

  Section Generated.
    Context {V D A : Type}.
    Implicit Types m : member V D.
    Variable from_start : dhelper -> bytes -> list attr -> outcome kind (A * dhelper).

    Record member_ok m (w : V -> nat) (wd : D -> nat -> Prop) : Prop := MemberOk {
      k_any : m_any m = false;
      k_kind : m_kind m = KindElement \/ m_kind m = KindGroup;
      k_init : forall h e o h', (m_kind m = KindElement -> check_tag h e (m_ns m) (m_name m) = true) ->
        de_init (m_deser m) h e = Ok (o, h') -> init_ok w wd e o;
      k_next : forall d k h e o h', wd d k -> de_next (m_deser m) d h e = Ok (o, h') -> next_ok w wd e k o;
      k_finish : forall d k h v h', wd d k -> de_finish (m_deser m) d h = Ok (v, h') -> w v = k;
      k_default : forall df h v h', m_default m = Some df -> df h = Ok (v, h') -> w v = 0
    }.

    Lemma init_calm w wd e (o : dout V D) : is_end e = false -> init_ok w wd e o -> calm o.
    Proof.
      intros E (B & _). unfold calm. destruct (o_art o); auto; destruct (o_ev o) as [| |e'] eqn:Q; auto;
        rewrite (B e' eq_refl); exact E.
    Qed.

    Definition sum (w : V -> nat) (l : list V) : nat := total (map w l).
    Lemma sum_app w a b : sum w (a ++ b) = sum w a + sum w b.
    Proof. unfold sum. rewrite map_app, total_app. reflexivity. Qed.

    Definition single_ok m (l : list V) : Prop := m_occ m = OSingle -> length l <= 1.

    Lemma push_count w (df : dhelper -> outcome kind (V * dhelper)) n :
      (forall h v h', df h = Ok (v, h') -> w v = 0) ->
      forall h l r h', push_defaults df n h l = Ok (r, h') -> sum w r = sum w l.
    Proof.
      intros F. induction n as [|n IH]; cbn; intros h l r h'.
      - intros [= <- _]. reflexivity.
      - destruct (df h) as [[v h1]| |] eqn:E; try discriminate. intros H. rewrite (IH _ _ _ _ H), sum_app.
        cbn. rewrite (F _ _ _ E), !Nat.add_0_r. reflexivity.
    Qed.
    Lemma arr_count w (df : dhelper -> outcome kind (V * dhelper)) n :
      (forall h v h', df h = Ok (v, h') -> w v = 0) ->
      forall h l r h', finish_arr_default df n h l = Ok (r, h') -> sum w r = sum w l.
    Proof.
      intros F h l r h'. unfold finish_arr_default, finish_vec_default.
      destruct (push_defaults _ _ _ _) as [[v h1]| |] eqn:E; try discriminate.
      destruct (Nat.eqb _ _); [|discriminate]. intros [= <- _]. eapply push_count; eauto.
    Qed.
    Lemma vec_same min max (l r : list V) : finish_vec min max l = Ok r -> r = l.
    Proof. unfold finish_vec. destruct (_ && _)%bool; congruence. Qed.
    Lemma arr_same n (l r : list V) : finish_arr n l = Ok r -> r = l.
    Proof. unfold finish_arr. destruct (Nat.eqb _ _); congruence. Qed.

    Lemma store_count m w l v r : single_ok m l -> store m l v = Ok r -> sum w r = sum w l + w v /\ single_ok m r.
    Proof.
      intros S. unfold store, single_ok. destruct (m_occ m); try discriminate.
      - destruct l; [|discriminate]. intros [= <-]. cbn. split; [auto with arith|intros _; auto].
      - destruct l; [|discriminate]. intros [= <-]. cbn. split; [auto with arith|intros _; auto].
      - intros [= <-]. rewrite sum_app. cbn. split; [rewrite Nat.add_0_r; reflexivity|discriminate].
      - intros [= <-]. rewrite sum_app. cbn. split; [rewrite Nat.add_0_r; reflexivity|discriminate].
    Qed.

    Lemma default_one w df h (l : list V) v h' :
      (forall h v h', df h = Ok (v, h') -> w v = 0) -> length l <= 1 ->
      finish_default df h (hd_error l) = Ok (v, h') -> w v = sum w l.
    Proof.
      intros F L. unfold finish_default. destruct l as [|u [|]]; cbn in *.
      - apply F.
      - intros [= <- _]. rewrite Nat.add_0_r. reflexivity.
      - intros _. exfalso. lia.
    Qed.

    Lemma finish_field_count m w wd l h r h' : member_ok m w wd -> single_ok m l ->
      finish_field m l h = Ok (r, h') -> sum w r = sum w l.
    Proof.
      intros K S. pose proof (k_default _ _ _ K) as F. unfold finish_field, single_ok in *. destruct (m_occ m).
      - discriminate.
      - specialize (S eq_refl). destruct (m_default m) as [df|].
        + intros H. bind H. injection H as <- _. cbn. rewrite Nat.add_0_r.
          eapply default_one; eauto.
        + destruct l as [|u [|]]; cbn in *; try discriminate; [intros [= <- _]; reflexivity|].
          exfalso. lia.
      - intros [= <- _]. reflexivity.
      - destruct (m_min m); [intros [= <- _]; reflexivity|]. destruct (m_default m) as [df|].
        + apply push_count. intros h0 v h1. apply F. reflexivity.
        + intros H. bind H. injection H as <- _. apply vec_same in E. subst. reflexivity.
      - destruct (m_default m) as [df|].
        + apply arr_count. intros h0 v h1. apply F. reflexivity.
        + intros H. bind H. injection H as <- _. apply arr_same in E. subst. reflexivity.
    Qed.

    (** The elements of a type with what their values hold. *)
    Section Members.
      Variables (ms : list (member V D)) (ws : list (V -> nat)) (wds : list (D -> nat -> Prop)).
      Definition w_at (i : nat) : V -> nat := nth i ws (fun _ => 0).
      Definition wd_at (i : nat) : D -> nat -> Prop := nth i wds (fun _ _ => False).
      Hypothesis Lw : length ws = length ms.
      Hypothesis MO : forall i m, nth_error ms i = Some m -> member_ok m (w_at i) (wd_at i).

      Definition fields_sum (fields : list (list V)) : nat := total (map (fun wf => sum (fst wf) (snd wf)) (combine ws fields)).
      Definition fields_ok (fields : list (list V)) : Prop :=
        length fields = length ms /\ forall i m, nth_error ms i = Some m -> single_ok m (field_at i fields).

      Lemma no_fields_ok : fields_ok (no_fields ms) /\ fields_sum (no_fields ms) = 0.
      Proof.
        unfold fields_ok, fields_sum, no_fields. split; [split|].
        - apply map_length.
        - intros i m _ _. unfold field_at. clear. revert i. induction ms as [|m' l IH]; intros [|i]; cbn; auto.
        - clear Lw MO. revert ws. induction ms as [|m l IH]; intros [|w ws']; cbn; auto.
      Qed.

      Lemma set_length {X} i (y : X) l : length (set_nth i y l) = length l.
      Proof. revert i. induction l; intros [|i]; cbn; auto. Qed.
      Lemma set_same {X} i (y d : X) l : i < length l -> nth i (set_nth i y l) d = y.
      Proof. revert i. induction l; intros [|i] L; cbn in *; auto with arith; inversion L. Qed.
      Lemma set_other {X} i j (y d : X) l : i <> j -> nth j (set_nth i y l) d = nth j l d.
      Proof. revert i j. induction l; intros [|i] [|j] N; cbn; auto; try congruence. Qed.
      Lemma set_sum i l fields : i < length fields -> length fields = length ws ->
        fields_sum (set_nth i l fields) + sum (w_at i) (field_at i fields) = fields_sum fields + sum (w_at i) l.
      Proof.
        clear Lw MO. unfold fields_sum, w_at, field_at. revert i fields. induction ws as [|w ws' IH]; intros i [|f fields] L E;
          cbn in *; try discriminate; try (inversion L; fail).
        unfold total in *. destruct i as [|i]; cbn [set_nth combine map fold_right fst snd nth]; [lia|].
        pose proof (IH i fields ltac:(lia) ltac:(lia)) as Q.
        rewrite <- !Nat.add_assoc. f_equal. exact Q.
      Qed.

      Lemma store_at_count i v fields r : fields_ok fields -> store_at ms i v fields = Ok r ->
        fields_ok r /\ fields_sum r = fields_sum fields + w_at i v.
      Proof.
        intros [L S]. unfold store_at. destruct (nth_error ms i) as [m|] eqn:N; [|discriminate]. intros H. bind H.
        injection H as <-. destruct (store_count m (w_at i) _ _ _ (S _ _ N) E) as [Q S'].
        assert (I : i < length fields) by (rewrite L; apply nth_error_Some; rewrite N; discriminate).
        split; [split|].
        - rewrite set_length. exact L.
        - intros j m' N'. unfold field_at. destruct (Nat.eq_dec i j) as [->|Ne].
          + rewrite set_same by exact I. rewrite N in N'. injection N' as <-. exact S'.
          + rewrite set_other by exact Ne. apply S. exact N'.
        - pose proof (set_sum i a fields I (eq_trans L (eq_sym Lw))) as P. rewrite Q in P.
          lia.
      Qed.

      Lemma finish_fields_count fields h r h' : fields_ok fields -> finish_fields ms fields h = Ok (r, h') ->
        fields_sum r = fields_sum fields.
      Proof.
        unfold fields_ok, fields_sum, w_at, wd_at in *. revert ws wds Lw MO fields h r h'.
        induction ms as [|m l IH]; intros ws wds Lw MO fields h r h' [L S]; cbn [finish_fields].
        - destruct fields; [|discriminate]. intros [= <- _]. destruct ws; reflexivity.
        - destruct fields as [|f fields]; [discriminate|]. intros H. bind H. bind H. injection H as <- _.
          destruct ws as [|w ws']; [discriminate|]. cbn [combine map fst snd total fold_right].
          f_equal.
          + destruct wds as [|wd wds']; (eapply finish_field_count; [exact (MO 0 m eq_refl)|exact (S 0 m eq_refl)|exact E]).
          + eapply (IH ws' (match wds with [] => [] | _ :: t => t end)); [cbn in Lw; congruence| |split|exact E0].
            * intros i m' N. pose proof (MO (Datatypes.S i) m' N) as K. destruct wds; cbn in K |- *; [destruct i|]; exact K.
            * cbn in L. congruence.
            * intros i m' N. exact (S (Datatypes.S i) m' N).
      Qed.

      (** ** Sequences *)
      Section Sequence.
        Variables (elem : bool) (no_attrs : A) (mixed : bool).

        Definition stw (st : sstate (D:=D)) (k : nat) : Prop :=
          match st with SAt i (Some d) => wd_at i d k | _ => k = 0 end.
        Definition idle (st : sstate (D:=D)) : Prop := match st with SAt _ (Some _) => False | _ => True end.
        Definition fbw (fb : option sstate) (k : nat) : Prop := match fb with Some f => stw f k | None => k = 0 end.
        Definition hs_ok (hs : hstate (V:=V) (D:=D)) (k : nat) : Prop :=
          match hs with
          | (fields, st, fb, _) =>
              fields_ok fields /\
              exists j, k = fields_sum fields + j /\
                match fb with Some f => idle st /\ stw f j | None => stw st j end
          end.
        Definition seq_w (v : A * list (list V)) : nat := fields_sum (snd v).
        Definition seq_wd (d : sdes (V:=V) (D:=D) (A:=A)) (k : nat) : Prop :=
          fields_ok (sd_fields d) /\ exists j, k = fields_sum (sd_fields d) + j /\ stw (sd_state d) j.

        Lemma idle_zero st : idle st -> stw st 0.
        Proof. destruct st as [|i [d|]| |]; cbn; tauto. Qed.
        Lemma next_idle i : idle (next_state ms i).
        Proof. unfold next_state. destruct (Nat.ltb _ _); exact I. Qed.
        Lemma data_idle i m n : idle (data_state ms i m n).
        Proof.
          unfold data_state. pose proof (next_idle i).
          destruct (m_occ m), (m_max m) as [|mx]; try (destruct (Nat.ltb n mx)); auto; exact I.
        Qed.
        Lemma des_idle i m n : idle (des_state ms i m n).
        Proof.
          unfold des_state. pose proof (next_idle i).
          destruct (m_occ m), (m_max m) as [|mx]; try (destruct (Nat.ltb n (mx - 1))); auto; exact I.
        Qed.
        Lemma next_not_init i : next_state ms i <> SInit.
        Proof. unfold next_state. destruct (Nat.ltb _ _); discriminate. Qed.
        Lemma data_not_init i m n : data_state ms i m n <> SInit.
        Proof.
          unfold data_state. pose proof (next_not_init i).
          destruct (m_occ m), (m_max m) as [|mx]; try (destruct (Nat.ltb n mx)); auto; discriminate.
        Qed.
        Lemma hs_mk fields st fb h j : fields_ok fields -> idle st -> fbw fb j ->
          hs_ok (fields, st, fb, h) (fields_sum fields + j).
        Proof.
          intros F I W. split; [exact F|]. exists j. split; [reflexivity|]. destruct fb as [f|]; cbn in W.
          - auto.
          - subst j. apply idle_zero. exact I.
        Qed.

        Lemma seq_state_count fields st h r h' j : fields_ok fields -> stw st j ->
          seq_finish_state ms fields st h = Ok (r, h') -> fields_ok r /\ fields_sum r = fields_sum fields + j.
        Proof.
          intros F W. unfold seq_finish_state.
          destruct st as [|i [d|]| |]; cbn in W; try (intros [= <- _]; subst j; rewrite Nat.add_0_r; auto; fail).
          destruct (nth_error ms i) as [m|] eqn:N; [|discriminate]. intros H. bind H. bind H. injection H as <- _.
          rewrite <- (k_finish _ _ _ (MO _ _ N) _ _ _ _ _ W E). eapply store_at_count; eauto.
        Qed.
        Lemma seq_flush_count fields fb h r h' j : fields_ok fields -> fbw fb j ->
          seq_flush ms fields fb h = Ok (r, h') -> fields_ok r /\ fields_sum r = fields_sum fields + j.
        Proof.
          destruct fb as [f|]; cbn; [apply seq_state_count|]. intros F -> [= <- _]. rewrite Nat.add_0_r. auto.
        Qed.

        (** What the handler makes of an answer that stands for [k] elements. *)
        Definition fin_state (hs : hstate (V:=V) (D:=D)) : sstate :=
          match hs with (_, st, fb, _) => match fb with Some f => f | None => st end end.
        Definition given (art : artifact V D) (i k : nat) : Prop :=
          match art with ANone => k = 0 | art => art_ok (w_at i) (wd_at i) art k end.

        Lemma seq_none_count i m fields ev fb h ho hs j : nth_error ms i = Some m ->
          fields_ok fields -> fbw fb j -> match ev with DContinue e => is_end e = false | _ => True end ->
          seq_none ms i m fields ev false fb h = Ok (ho, hs) ->
          hrel ev ho /\ noend ho /\ hs_ok hs (fields_sum fields + j).
        Proof.
          intros N F W C. unfold seq_none.
          assert (On : @Ok kind _ (from_event ev false, (fields, next_state ms i, fb, h)) = Ok (ho, hs) ->
            hrel ev ho /\ noend ho /\ hs_ok hs (fields_sum fields + j)).
          { intros [= <- <-]. split; [|split]; auto with count. apply hs_mk; auto. apply next_idle. }
          destruct (m_min m); [exact On|].
          assert (Cn : noend (HBreak ev false)) by (destruct ev; exact C || exact I).
          assert (Un : forall fb' h, fbw fb' j -> hs_ok (fields, SUnknown, fb', h) (fields_sum fields + j)).
          { intros fb' h0 W'. apply hs_mk; auto. exact I. }
          assert (Bk : forall fb', fbw fb' j -> @Ok kind _ (HBreak ev false, (fields, SUnknown, fb', h)) = Ok (ho, hs) ->
            hrel ev ho /\ noend ho /\ hs_ok hs (fields_sum fields + j)).
          { intros fb' W' [= <- <-]. split; [|split]; auto with count. }
          assert (Rt : forall fb', fbw fb' j -> @Ok kind _ (return_to_root ev false, (fields, SUnknown, fb', h)) = Ok (ho, hs) ->
            hrel ev ho /\ noend ho /\ hs_ok hs (fields_sum fields + j)).
          { intros fb' W' [= <- <-]. split; [|split]; auto with count. }
          assert (Wi : fbw (get_or_insert fb (SAt i None)) j) by (destruct fb; exact W).
          destruct (m_occ m), (m_default m); try exact On.
          2:{ destruct (get_or_insert fb (SAt i None)) as [[]|]; first [apply Bk; exact Wi|apply Rt; exact Wi]. }
          all: assert (Fl : (let* (fields', h') := seq_flush ms fields fb h in
                  if Nat.ltb (length (field_at i fields')) (S n)
                  then Ok (return_to_root ev false, (fields', SUnknown, Some (SAt i None), h'))
                  else Ok (from_event ev false, (fields', next_state ms i, None, h'))) = @Ok kind _ (ho, hs) ->
                hrel ev ho /\ noend ho /\ hs_ok hs (fields_sum fields + j))
            by (intros H; bind H; destruct (seq_flush_count _ _ _ _ _ _ F W E) as [F' Q]; rewrite <- Q;
                destruct (Nat.ltb _ _); injection H as <- <-; (split; [|split]; auto with count);
                rewrite <- (Nat.add_0_r (fields_sum a)); apply hs_mk; auto; try reflexivity; try exact I; apply next_idle).
          all: destruct fb as [[]|]; first [exact Fl|apply Bk; exact W].
        Qed.

        Lemma seq_handle_count i m fields out fb h ho hs j k : nth_error ms i = Some m ->
          fields_ok fields -> fbw fb j -> o_any out = false -> calm out -> given (o_art out) i k ->
          seq_handle ms i m fields out fb h = Ok (ho, hs) ->
          hrel (o_ev out) ho /\ noend ho /\ hs_ok hs (fields_sum fields + j + k) /\
          (fin_state hs = SInit -> o_art out = ANone).
        Proof.
          intros N F W Ha C G. unfold seq_handle. rewrite Ha. unfold calm in C. destruct (o_art out) as [|v|d]; cbn in G.
          - subst k. rewrite Nat.add_0_r. intros H. destruct (seq_none_count _ _ _ _ _ _ _ _ _ N F W C H) as (P1 & P2 & P3).
            split; [|split; [|split]]; auto.
          - intros H. bind H. bind H. injection H as <- <-.
            destruct (seq_flush_count _ _ _ _ _ _ F W E) as [F' Q].
            destruct (store_at_count _ _ _ _ F' E0) as [F2 Q2].
            split; [|split; [|split]]; auto with count.
            + rewrite <- Q, <- G, <- Q2, <- (Nat.add_0_r (fields_sum a0)). apply hs_mk; auto; [apply data_idle|reflexivity].
            + intros X. exfalso. exact (data_not_init _ _ _ X).
          - intros H. bind H. injection H as <- <-. destruct (seq_flush_count _ _ _ _ _ _ F W E) as [F' Q].
            split; [|split; [|split]]; auto with count.
            + rewrite <- Q. apply hs_mk; auto. apply des_idle.
            + discriminate.
        Qed.

        Definition seq_answer (e : event) (k : nat) (o : dout (A * list (list V)) (sdes (V:=V) (D:=D) (A:=A))) : Prop :=
          next_ok seq_w seq_wd e k o /\
          match o_art o with ADes d => sd_state d = SInit -> taken (o_ev o) e = 0 | _ => True end.

        Lemma seq_end_count a hs ev e k r h' : back ev e ->
          hs_ok hs k -> (fin_state hs = SInit -> taken ev e = 0) -> noend (HBreak ev false) -> taken ev e = 0 ->
          seq_end a hs ev false = Ok (r, h') -> seq_answer e k r.
        Proof.
          destruct hs as [[[fields st] fb] h]. intros B (F & j & -> & W) I C T [= <- _].
          split; [split; [|split; [|split]]|]; cbn; auto.
          split; [exact F|]. exists j. cbn. split; [lia|]. destruct fb; tauto.
        Qed.
        Lemma seq_end_count' a hs ev e k k' r h' : back ev e ->
          hs_ok hs k' -> k' = k + taken ev e ->
          (fin_state hs = SInit -> taken ev e = 0) -> noend (HBreak ev false) ->
          seq_end a hs ev false = Ok (r, h') -> seq_answer e k r.
        Proof.
          destruct hs as [[[fields st] fb] h]. intros B (F & j & -> & W) T I C [= <- _].
          split; [split; [|split; [|split]]|]; cbn; auto.
          split; [exact F|]. exists j. cbn. split; [lia|]. destruct fb; tauto.
        Qed.

        Lemma seq_loop_count fuel (a : A) : forall hs e k retry afb o h',
          hs_ok hs k -> seq_loop elem false mixed ms fuel a hs e false retry afb = Ok (o, h') -> seq_answer e k o.
        Proof.
          induction fuel as [|fuel IH]; intros hs e k retry afb o h' Hs; [discriminate|].
          destruct hs as [[[fields st] fb] h]. pose proof Hs as (F & j & -> & W).
          assert (Run : forall i m (r : dresult V D) j' kr, nth_error ms i = Some m -> fbw fb j' -> j = j' + kr ->
            (forall out h1, r = Ok (out, h1) -> back (o_ev out) e /\ o_any out = false /\ calm out /\
               (o_art out = ANone -> taken (o_ev out) e = 0) /\ given (o_art out) i (kr + taken (o_ev out) e)) ->
            (let* (out, h1) := r in
              let* (ho, hs') := seq_handle ms i m fields out fb h1 in
              match ho with
              | HContinue e' y => seq_loop elem false mixed ms fuel a hs' e' (false || y) retry afb
              | HBreak de y => seq_end a hs' de y
              end) = Ok (o, h') -> seq_answer e (fields_sum fields + j) o).
          { intros i m r j' kr N W' -> R H. apply obind_ok in H. destruct H as ([out h1] & E & H).
            destruct (R _ _ E) as (B & Ha & C & Nn & G).
            apply obind_ok in H. destruct H as ([ho hs'] & E0 & H).
            destruct (seq_handle_count _ _ _ _ _ _ _ _ _ _ N F W' Ha C G E0) as (Rl & Ne & Hs' & Fi).
            destruct ho as [e' y|de y]; cbn in Rl; destruct Rl as [Rl ->].
            - assert (e' = e) by (apply B; rewrite Rl; reflexivity). subst e'.
              replace (fields_sum fields + (j' + kr)) with (fields_sum fields + j' + (kr + taken (o_ev out) e))
                by (rewrite Rl; cbn; lia).
              eapply IH; eauto.
            - eapply seq_end_count'; [| |  | | |exact H].
              + intros e1 X. apply B. rewrite <- Rl. exact X.
              + exact Hs'.
              + rewrite (taken_into x _ _ e Rl). lia.
              + intros X. rewrite (taken_into x _ _ e Rl). auto.
              + exact Ne. }
          assert (Rest : idle st -> forall r : dresult (A * list (list V)) (sdes (V:=V) (D:=D) (A:=A)),
            (is_end e = false -> r = Ok (o, h') -> seq_answer e (fields_sum fields + j) o) ->
            (if is_end e then
              let* (fields1, h1) := seq_flush ms fields fb h in
              let* (vals, h2) := finish_fields ms fields1 h1 in
              Ok (DOut (AData (a, vals)) (if elem then DNone else DContinue e) false, h2)
            else r) = Ok (o, h') -> seq_answer e (fields_sum fields + j) o).
          { intros Id r R. destruct (is_end e) eqn:Ee; [|exact (R eq_refl)]. intros H. bind H. bind H. injection H as <- _.
            assert (W' : fbw fb j).
            { destruct fb; cbn; [tauto|]. destruct st as [|? [?|]| |]; cbn in *; tauto. }
            destruct (seq_flush_count _ _ _ _ _ _ F W' E) as [F' Q].
            assert (T : taken (if elem then DNone else DContinue e) e = 0).
            { destruct elem; [|reflexivity]. destruct e; try discriminate. reflexivity. }
            split; [split; [|split; [|split]]|]; cbn; auto.
            - destruct elem; auto with frame.
            - unfold seq_w. cbn. rewrite (finish_fields_count _ _ _ _ F' E0), T. lia. }
          assert (We : idle st -> fbw fb j).
          { intros Id. destruct fb; cbn; [tauto|]. destruct st as [|? [?|]| |]; cbn in *; tauto. }
          cbn [seq_loop]. destruct st as [|i [d|]| |].
          - apply (Rest I). intros Ee. cbn [orb]. apply IH. split; [exact F|]. exists j. split; [reflexivity|].
            destruct fb; cbn in W |- *; tauto.
          - destruct (nth_error ms i) as [m|] eqn:N; [|discriminate].
            assert (Wd : wd_at i d j /\ fb = None) by (destruct fb; [destruct W as [[] _]|auto]).
            destruct Wd as [Wd ->].
            apply (Run i m _ 0 j N eq_refl eq_refl). intros out h1 E.
            destruct (k_next _ _ _ (MO _ _ N) _ _ _ _ _ _ Wd E) as (B & Ha & Ar & C).
            split; [exact B|split; [exact Ha|split; [exact C|split]]].
            + intros X. rewrite X in Ar. destruct Ar.
            + unfold given. destruct (o_art out); [destruct Ar|exact Ar|exact Ar].
          - apply (Rest I). intros Ee. destruct (nth_error ms i) as [m|] eqn:N; [|discriminate].
            pose proof (MO _ _ N) as K. pose proof (k_kind _ _ _ K) as Kk.
            assert (X1 : mkind_eqb (m_kind m) KindText = false) by (destruct Kk as [->| ->]; reflexivity).
            assert (X2 : mkind_eqb (m_kind m) KindAny = false) by (destruct Kk as [->| ->]; reflexivity).
            rewrite X1, X2. cbn [orb andb]. destruct (is_tag e) eqn:Et.
            + apply (Run i m _ j 0 N (We I)); [lia|]. intros out h1 E.
              assert (O : init_ok (w_at i) (wd_at i) e out).
              { unfold seq_start in E. destruct Kk as [Kk|Kk]; rewrite Kk in E.
                - unfold init_start_tag in E. destruct (check_tag _ _ _ _) eqn:Ck.
                  + eapply (k_init _ _ _ K); [intros _; exact Ck|exact E].
                  + injection E as <- _. split; [|split]; cbn; auto with frame. rewrite (k_any _ _ _ K). reflexivity.
                - eapply (k_init _ _ _ K); [rewrite Kk; discriminate|exact E]. }
              pose proof (init_calm _ _ _ _ Ee O) as C. destruct O as (B & Ha & O).
              split; [exact B|split; [exact Ha|split; [exact C|split]]].
              * intros X. rewrite X in O. exact O.
              * unfold given. destruct (o_art out); exact O.
            + assert (T : taken DNone e = 0) by (destruct e; try discriminate; reflexivity).
              destruct (mixed && is_chars e); apply seq_end_count; auto with frame; cbn; auto.
          - apply (Rest I). intros Ee.
            assert (Hn : has_any ms = false).
            { apply Bool.not_true_iff_false. intros X. apply existsb_exists in X. destruct X as (m & Im & X).
              apply In_nth_error in Im. destruct Im as [i N]. destruct (k_kind _ _ _ (MO _ _ N)) as [Kk|Kk]; rewrite Kk in X; discriminate. }
            rewrite Hn. apply seq_end_count; auto with frame.
          - discriminate.
        Qed.

        Lemma seq_finish_count d k h v h' : seq_wd d k -> seq_finish (A:=A) ms d h = Ok (v, h') -> seq_w v = k.
        Proof.
          intros (F & j & -> & W) H. unfold seq_finish in H. bind H. bind H. injection H as <- _.
          destruct (seq_state_count _ _ _ _ _ _ F W E) as [F' Q]. unfold seq_w. cbn.
          rewrite (finish_fields_count _ _ _ _ F' E0). exact Q.
        Qed.
        Lemma seq_new_count (a : A) : seq_wd (seq_new ms a) 0.
        Proof.
          destruct no_fields_ok as [F Q]. split; [exact F|]. exists 0. cbn. rewrite Q. auto.
        Qed.
        Lemma seq_next_count d k h e o h' : seq_wd d k -> seq_next (A:=A) elem false mixed ms d h e = Ok (o, h') -> seq_answer e k o.
        Proof. intros (F & W). apply seq_loop_count. split; [exact F|exact W]. Qed.

        Lemma seq_count : conserves elem seq_w seq_wd (seq_deser from_start elem no_attrs false mixed ms).
        Proof.
          pose proof seq_next_count as Nx. split; cbn.
          - intros h e o h'. destruct elem.
            + unfold seq_init_element.
              destruct e; try (intros [= <- _]; split; [|split; [|split]]; cbn; auto with frame; fail).
              * intros H. bind H. injection H as <- _. split; [|split]; cbn; auto with frame. repeat split; auto; apply seq_new_count.
              * intros H. bind H. bind H. injection H as <- _. split; [|split]; cbn; auto with frame. repeat split.
                eapply seq_finish_count; [apply seq_new_count|eauto].
            + unfold seq_init_group. intros H. bind H. injection H as <- _.
              destruct (Nx _ _ _ _ _ _ (seq_new_count no_attrs) E) as [(B & Ha & Ar & C) Si].
              split; [exact B|split; [exact Ha|]]. cbn. destruct (o_art a) as [|v|d]; cbn in Ar; [destruct Ar|exact Ar|].
              destruct (sd_state d) eqn:Q; cbn; auto.
          - intros d k h e o h' W H. exact (proj1 (Nx _ _ _ _ _ _ W H)).
          - intros d k h v h'. apply seq_finish_count.
        Qed.
      End Sequence.

      (** ** Choices *)
      Section Choice.
        Variables (elem mixed defaultable : bool).
        Notation vt := (variant (V:=V)).

        Definition ow (i : nat) (c : option D) (k : nat) : Prop := match c with Some d => wd_at i d k | None => k = 0 end.
        Definition enum_w (v : vt) : nat := sum (w_at (fst v)) (snd v).
        Definition estw (st : estate (V:=V) (D:=D)) (k : nat) : Prop :=
          match st with
          | EInit => k = 0
          | EAt i vals fb cur =>
              (forall m, nth_error ms i = Some m -> single_ok m vals) /\
              exists jf jc, ow i fb jf /\ ow i cur jc /\ k = sum (w_at i) vals + jf + jc
          | EFin v => enum_w v = k
          | EUnknown => True
          end.

        Lemma keep_count i m vals (cur : option D) h r h' j : nth_error ms i = Some m -> single_ok m vals -> ow i cur j ->
          match cur with
          | Some d => let* (v, h1) := de_finish (m_deser m) d h in let* vs := store m vals v in Ok (vs, h1)
          | None => Ok (vals, h)
          end = Ok (r, h') -> sum (w_at i) r = sum (w_at i) vals + j /\ single_ok m r.
        Proof.
          intros N S W. destruct cur as [d|]; cbn in W.
          - intros H. bind H. bind H. injection H as <- _. rewrite <- (k_finish _ _ _ (MO _ _ N) _ _ _ _ _ W E).
            eapply store_count; eauto.
          - intros [= <- _]. subst j. rewrite Nat.add_0_r. auto.
        Qed.

        Lemma variant_default_count m h r h' : nth_error ms 0 = Some m -> variant_default m h = Ok (r, h') -> enum_w r = 0.
        Proof.
          intros N. pose proof (k_default _ _ _ (MO _ _ N)) as F. unfold variant_default, enum_w. destruct (m_occ m).
          - discriminate.
          - destruct (m_default m) as [df|]; [|discriminate]. intros H. bind H. injection H as <- _. cbn.
            rewrite Nat.add_0_r. eapply F; eauto.
          - intros [= <- _]. reflexivity.
          - destruct (m_min m); [intros [= <- _]; reflexivity|]. destruct (m_default m) as [df|]; [|discriminate].
            intros H. bind H. injection H as <- _. cbn [fst snd]. rewrite (push_count (w_at 0) df _ (fun h0 v h1 => F df h0 v h1 eq_refl) _ _ _ _ E). reflexivity.
          - destruct (m_default m) as [df|]; [|discriminate]. intros H. bind H. injection H as <- _. cbn [fst snd].
            rewrite (arr_count (w_at 0) df _ (fun h0 v h1 => F df h0 v h1 eq_refl) _ _ _ _ E). reflexivity.
        Qed.

        Lemma enum_finish_count st h r h' k : estw st k -> enum_finish_state defaultable ms st h = Ok (r, h') -> enum_w r = k.
        Proof.
          intros W. unfold enum_finish_state. destruct st as [|i vals [fb|] cur|v|]; try discriminate.
          - destruct defaultable; [|discriminate]. cbn in W. subst k.
            assert (Df : forall l, l = ms -> match l with m :: _ => variant_default m h | [] => Panic end = Ok (r, h') -> enum_w r = 0).
            { intros [|m l] Q H; [discriminate|]. eapply variant_default_count; [rewrite <- Q; reflexivity|exact H]. }
            apply Df. reflexivity.
          - destruct (nth_error ms i) as [m|] eqn:N; [|discriminate]. intros H. bind H. bind H. injection H as <- _.
            destruct W as (S & jf & jc & Wf & Wc & ->). cbn in Wf. subst jf.
            destruct (keep_count i m vals cur _ _ _ _ N (S _ N) Wc E) as [Q S'].
            unfold enum_w. cbn [fst snd]. rewrite (finish_field_count _ _ _ _ _ _ _ (MO _ _ N) S' E0). lia.
          - intros [= <- _]. exact W.
        Qed.

        Definition handled (e : event) (k : nat) (ho : hout) (st : estate (V:=V) (D:=D)) : Prop :=
          (noend ho \/ exists v, st = EFin v) /\ estw st k.

        Lemma at_mk i m vals fb cur jf jc : nth_error ms i = Some m -> single_ok m vals -> ow i fb jf -> ow i cur jc ->
          estw (EAt i vals fb cur) (sum (w_at i) vals + jf + jc).
        Proof.
          intros N S F C. split; [|eauto]. intros m' N'. rewrite N in N'. injection N' as <-. exact S.
        Qed.

        Lemma enum_handle_count i m vals fb out h ho st h' j k : nth_error ms i = Some m ->
          single_ok m vals -> ow i fb j -> o_any out = false -> calm out -> given (o_art out) i k ->
          enum_handle elem defaultable ms i m vals fb out h = Ok (ho, st, h') ->
          hrel (o_ev out) ho /\ (noend ho \/ exists v, st = EFin v) /\ estw st (sum (w_at i) vals + j + k) /\
          (st = EInit -> o_art out = ANone).
        Proof.
          intros N S W Ha C G. unfold enum_handle. rewrite Ha. unfold calm in C.
          assert (Be : match o_ev out with DContinue e => is_end e = false | _ => True end ->
            hrel (o_ev out) (break_or_end elem (o_ev out) false) /\ noend (break_or_end elem (o_ev out) false)).
          { intros C'. unfold break_or_end. destruct elem; split; auto with count. }
          assert (Cr : match o_ev out with DContinue e => is_end e = false | _ => True end ->
            hrel (o_ev out) (continue_or_return m (o_ev out) false) /\ noend (continue_or_return m (o_ev out) false)).
          { intros C'. unfold continue_or_return. destruct (m_kind m); auto with count. }
          destruct (o_art out) as [|v|d]; cbn in G.
          - subst k. destruct (Be C) as [Be1 Be2]. destruct (Cr C) as [Cr1 Cr2].
            assert (Un : @Ok kind _ (continue_or_return m (o_ev out) false, @EUnknown V D, h) = Ok (ho, st, h') ->
              hrel (o_ev out) ho /\ (noend ho \/ exists v, st = EFin v) /\ estw st (sum (w_at i) vals + j + 0) /\ (st = EInit -> @ANone V D = ANone)).
            { intros [= <- <- _]. repeat split; auto. }
            assert (At : (if negb (Nat.eqb (m_min m) 0 || is_some (m_default m)) &&
                             Nat.ltb (length vals + (if is_some fb then 1 else 0)) (m_min m)
                          then Ok (return_to_root (o_ev out) false, EAt i vals None fb, h)
                          else Ok (break_or_end elem (o_ev out) false, EAt i vals None fb, h)) = @Ok kind _ (ho, st, h') ->
              hrel (o_ev out) ho /\ (noend ho \/ exists v, st = EFin v) /\ estw st (sum (w_at i) vals + j + 0) /\ (st = EInit -> @ANone V D = ANone)).
            { assert (Aw : estw (EAt i vals None fb) (sum (w_at i) vals + j + 0)).
              { replace (sum (w_at i) vals + j + 0) with (sum (w_at i) vals + 0 + j) by lia. eapply at_mk; eauto. reflexivity. }
              destruct (negb _ && _); intros [= <- <- _]; (split; [|split; [|split]]); auto with count. }
            assert (In : fb = None -> vals = [] -> @Ok kind _ (continue_or_return m (o_ev out) false, @EInit V D, h) = Ok (ho, st, h') ->
              hrel (o_ev out) ho /\ (noend ho \/ exists v, st = EFin v) /\ estw st (sum (w_at i) vals + j + 0) /\ (st = EInit -> @ANone V D = ANone)).
            { intros -> -> [= <- <- _]. cbn in W. subst j. repeat split; auto. }
            destruct (m_occ m); try discriminate; try exact Un.
            + destruct fb; [exact At|]. destruct vals; [exact (In eq_refl eq_refl)|exact At].
            + destruct fb; [exact At|]. destruct vals; [exact (In eq_refl eq_refl)|exact At].
          - intros H. bind H. destruct (keep_count i m vals fb _ _ _ _ N S W E) as [Q S1]. bind H.
            destruct (store_count m (w_at i) _ _ _ S1 E0) as [Q2 S2].
            assert (Aw : estw (EAt i a0 None None) (sum (w_at i) vals + j + k)).
            { replace (sum (w_at i) vals + j + k) with (sum (w_at i) a0 + 0 + 0) by lia. eapply at_mk; eauto; reflexivity. }
            assert (Stay : @Ok kind _ (from_event (o_ev out) false, EAt i a0 None None, b) = Ok (ho, st, h') ->
              hrel (o_ev out) ho /\ (noend ho \/ exists v, st = EFin v) /\ estw st (sum (w_at i) vals + j + k) /\ (st = EInit -> AData (D:=D) v = ANone)).
            { intros [= <- <- _]. split; [|split; [|split]]; auto with count. discriminate. }
            assert (Leave : (let* (t, h2) := enum_finish_state defaultable ms (EAt i a0 None None) b in
                Ok (HBreak (o_ev out) false, EFin t, h2)) = @Ok kind _ (ho, st, h') ->
              hrel (o_ev out) ho /\ (noend ho \/ exists v, st = EFin v) /\ estw st (sum (w_at i) vals + j + k) /\ (st = EInit -> AData (D:=D) v = ANone)).
            { intros L. apply obind_ok in L. destruct L as ([t h2] & L & X). injection X as <- <- _.
              split; [|split; [|split]]; auto with count.
              - right. eauto.
              - cbn. eapply enum_finish_count; eauto.
              - discriminate. }
            destruct elem; [exact (Stay H)|]. destruct (m_occ m); try exact (Leave H);
              (destruct (m_max m); [exact (Stay H)|destruct (Nat.ltb _ _); [exact (Stay H)|exact (Leave H)]]).
          - destruct (Be C) as [Be1 Be2]. intros H. bind H. destruct (keep_count i m vals fb _ _ _ _ N S W E) as [Q S1].
            assert (A1 : estw (EAt i a None (Some d)) (sum (w_at i) vals + j + k)).
            { replace (sum (w_at i) vals + j + k) with (sum (w_at i) a + 0 + k) by lia. eapply at_mk; eauto; reflexivity. }
            assert (A2 : estw (EAt i a (Some d) None) (sum (w_at i) vals + j + k)).
            { replace (sum (w_at i) vals + j + k) with (sum (w_at i) a + k + 0) by lia. eapply at_mk; eauto; reflexivity. }
            assert (Dy : forall more : bool,
              @Ok kind _ (if more then from_event (o_ev out) false else break_or_end elem (o_ev out) false,
                if more && is_continue_tag (if more then from_event (o_ev out) false else break_or_end elem (o_ev out) false)
                then EAt i a (Some d) None else EAt i a None (Some d), b) = Ok (ho, st, h') ->
              hrel (o_ev out) ho /\ (noend ho \/ exists v, st = EFin v) /\ estw st (sum (w_at i) vals + j + k) /\ (st = EInit -> ADes (T:=V) d = ANone)).
            { intros more [= <- <- _]. split; [|split; [|split]].
              - destruct more; auto with count.
              - left. destruct more; auto with count.
              - destruct (more && _); auto.
              - destruct (more && _); discriminate. }
            destruct (m_occ m); try exact (Dy _ H);
              (injection H as <- <- _; split; [|split; [|split]]; auto; discriminate).
        Qed.

        (** What an answer has taken. *)
        Definition htaken (ho : hout) (e : event) : nat :=
          match ho with HContinue _ _ => 0 | HBreak de _ => taken de e end.
        Definition found (e : event) (ho : hout) (st : estate (V:=V) (D:=D)) : Prop :=
          hback ho e /\ match ho with HContinue _ y | HBreak _ y => y = false end /\
          (noend ho \/ exists v, st = EFin v) /\ estw st (htaken ho e) /\ (st = EInit -> htaken ho e = 0).

        Lemma htaken_rel ev ho e : hrel ev ho -> htaken ho e = taken ev e.
        Proof. destruct ho as [e' y|de y]; cbn; intros [R _]; [rewrite R; reflexivity|apply taken_into; exact R]. Qed.

        Lemma start_found i m out h ho st h' e : nth_error ms i = Some m -> is_end e = false ->
          init_ok (w_at i) (wd_at i) e out ->
          enum_handle elem defaultable ms i m [] None out h = Ok (ho, st, h') -> found e ho st.
        Proof.
          intros N Ee O H. pose proof (init_calm _ _ _ _ Ee O) as C. destruct O as (B & Ha & O).
          destruct (enum_handle_count i m [] None out h ho st h' 0 (taken (o_ev out) e) N) as (R & Ne & W & In); auto.
          - intros _. cbn. lia.
          - reflexivity.
          - unfold given. destruct (o_art out); exact O.
          - cbn in W. pose proof (htaken_rel _ _ e R) as T. rewrite <- T in W.
            split; [|split; [|split; [|split]]]; auto.
            + destruct ho as [e' y|de y]; cbn in R |- *; destruct R as [R _].
              * apply B. rewrite R. reflexivity.
              * intros e1 X. apply B. rewrite <- R. exact X.
            + destruct ho; cbn in R; tauto.
            + intros X. rewrite T. rewrite (In X) in O. exact O.
        Qed.

        Lemma no_text : forall i l, (forall j m, nth_error l j = Some m -> m_kind m = KindElement \/ m_kind m = KindGroup) ->
          first_text i l = None (A := nat * member V D).
        Proof.
          intros i l. revert i. induction l as [|m l IH]; intros i K; [reflexivity|]. cbn.
          destruct (K 0 m eq_refl) as [->| ->]; cbn; apply IH; intros j m' N'; exact (K (Datatypes.S j) m' N').
        Qed.
        Lemma first_text_none : first_text 0 ms = None.
        Proof. apply no_text. intros j m N. exact (k_kind _ _ _ (MO _ _ N)). Qed.

        Lemma try_groups_count sel : (forall kd, sel kd = true -> kd <> KindElement) ->
          forall l i e h r, (forall j m, nth_error l j = Some m -> nth_error ms (i + j) = Some m) -> is_end e = false ->
          try_groups elem defaultable ms sel i l e false h = Ok r ->
          match r with
          | inl (ho, st, _) => found e ho st
          | inr (e', any, _) => e' = e /\ any = false
          end.
        Proof.
          intros Se. induction l as [|m l IH]; cbn [try_groups]; intros i e h r L Ee H.
          - injection H as <-. auto.
          - assert (N : nth_error ms i = Some m) by (rewrite <- (Nat.add_0_r i); apply L; reflexivity).
            assert (L' : forall j m', nth_error l j = Some m' -> nth_error ms (Datatypes.S i + j) = Some m').
            { intros j m' N'. replace (Datatypes.S i + j) with (i + Datatypes.S j) by lia. apply L. exact N'. }
            destruct (sel (m_kind m)) eqn:Sm; [|eapply IH; eauto].
            bind H. apply obind_ok in H. destruct H as ([[ho st] h2] & H1 & H2).
            assert (O : init_ok (w_at i) (wd_at i) e a).
            { eapply (k_init _ _ _ (MO _ _ N)); [|exact E]. intros X. destruct (Se _ Sm X). }
            pose proof (start_found _ _ _ _ _ _ _ _ N Ee O H1) as Fo.
            destruct ho as [e' y|de y].
            + destruct Fo as (Hb & Hy & _). cbn in Hb, Hy. subst e' y. eapply IH; eauto.
            + injection H2 as <-. exact Fo.
        Qed.

        Lemma find_tag_at : forall l i e h j m, (forall j m, nth_error l j = Some m -> nth_error ms (i + j) = Some m) ->
          find_tag i l e h = Some (j, m) -> nth_error ms j = Some m /\ check_tag h e (m_ns m) (m_name m) = true.
        Proof.
          induction l as [|m l IH]; cbn; intros i e h j m' L; [discriminate|].
          destruct (mkind_eqb _ _ && check_tag h e (m_ns m) (m_name m)) eqn:Q.
          - intros [= <- <-]. apply andb_prop in Q. destruct Q as [_ Q]. split; [|exact Q].
            rewrite <- (Nat.add_0_r i). apply L. reflexivity.
          - apply IH. intros j0 m0 N. replace (Datatypes.S i + j0) with (i + Datatypes.S j0) by lia. apply L. exact N.
        Qed.

        Lemma find_suitable_count e h ho st h' : is_end e = false ->
          find_suitable elem false defaultable ms e h = Ok (ho, st, h') -> found e ho st.
        Proof.
          intros Ee. unfold find_suitable. rewrite first_text_none. cbn [orb].
          assert (Re : forall e' (y : bool) h1, e' = e -> y = false ->
            @Ok kind _ (return_to_parent e' y, @EInit V D, h1) = Ok (ho, st, h') -> found e ho st).
          { intros e' y h1 -> -> [= <- <- _]. split; [|split; [|split; [|split]]]; cbn; auto with frame. }
          destruct (is_tag e); [|apply Re; reflexivity].
          destruct (find_tag 0 ms e h) as [[i m]|] eqn:Ft.
          - destruct (find_tag_at ms 0 _ _ _ _ (fun j m N => N) Ft) as [N Ck]. intros H. bind H.
            eapply start_found; eauto. eapply (k_init _ _ _ (MO _ _ N)); [intros _; exact Ck|exact E].
          - intros H. apply obind_ok in H. destruct H as (r & E & H).
            apply (try_groups_count sel_group) in E; [|intros []; discriminate|intros j m N; exact N|exact Ee].
            destruct r as [[[ho1 st1] h1]|[[e1 any1] h1]].
            + injection H as <- <- _. exact E.
            + destruct E as [-> ->]. apply obind_ok in H. destruct H as (r & E & H).
              apply (try_groups_count sel_any) in E; [|intros []; discriminate|intros j m N; exact N|exact Ee].
              destruct r as [[[ho1 st1] h2]|[[e1 any1] h2]].
              * injection H as <- <- _. exact E.
              * destruct E as [-> ->]. revert H. apply Re; reflexivity.
        Qed.

        Definition enum_answer (e : event) (k : nat) (o : dout vt (estate (V:=V) (D:=D))) : Prop :=
          next_ok enum_w estw e k o /\ (o_art o = ADes EInit -> taken (o_ev o) e = 0).

        Lemma enum_end_count st h ev e k r h' : back ev e -> estw st (k + taken ev e) ->
          (noend (HBreak ev false) \/ exists v, st = EFin v) -> (st = EInit -> taken ev e = 0) ->
          enum_end st h ev false = Ok (r, h') -> enum_answer e k r.
        Proof.
          intros B W Ne In. unfold enum_end. destruct st; intros [= <- _];
            (split; [split; [|split; [|split]]|]); cbn; auto; try discriminate;
            try (destruct Ne as [Ne|[v X]]; [unfold calm; cbn; destruct ev; exact Ne || exact I|discriminate]).
        Qed.

        Lemma enum_loop_count fuel : forall st h e k o h', estw st k ->
          enum_loop elem false mixed defaultable ms fuel st h e = Ok (o, h') -> enum_answer e k o.
        Proof.
          induction fuel as [|fuel IH]; intros st h e k o h' W; [discriminate|].
          assert (Go : forall ho st' h1, hback ho e -> match ho with HContinue _ y | HBreak _ y => y = false end ->
            (noend ho \/ exists v, st' = EFin v) -> estw st' (k + htaken ho e) -> (st' = EInit -> htaken ho e = 0) ->
            match ho with
            | HContinue e' _ => enum_loop elem false mixed defaultable ms fuel st' h1 e'
            | HBreak de y => enum_end st' h1 de y
            end = Ok (o, h') -> enum_answer e k o).
          { intros [e' y|de y] st' h1; cbn; intros B -> Ne W' In.
            - subst e'. rewrite Nat.add_0_r in W'. apply IH. exact W'.
            - apply enum_end_count; auto. }
          assert (Run : forall i m vals fb (r : dresult V D) j kr, nth_error ms i = Some m -> single_ok m vals -> ow i fb j ->
            k = sum (w_at i) vals + j + kr ->
            (forall out h1, r = Ok (out, h1) -> back (o_ev out) e /\ o_any out = false /\ calm out /\
               (o_art out = ANone -> taken (o_ev out) e = 0) /\ given (o_art out) i (kr + taken (o_ev out) e)) ->
            (let* (out, h1) := r in
              let* (ho, st', h2) := enum_handle elem defaultable ms i m vals fb out h1 in
              match ho with
              | HContinue e' _ => enum_loop elem false mixed defaultable ms fuel st' h2 e'
              | HBreak de y => enum_end st' h2 de y
              end) = Ok (o, h') -> enum_answer e k o).
          { intros i m vals fb r j kr N S Wf Kq R H. apply obind_ok in H. destruct H as ([out h1] & E & H).
            destruct (R _ _ E) as (B & Ha & C & Nn & G).
            apply obind_ok in H. destruct H as ([[ho st'] h2] & E0 & H).
            destruct (enum_handle_count _ _ _ _ _ _ _ _ _ _ _ N S Wf Ha C G E0) as (Rl & Ne & W' & In).
            pose proof (htaken_rel _ _ e Rl) as T. revert H. apply Go; auto.
            - destruct ho as [e' y|de y]; cbn in Rl |- *; destruct Rl as [Rl _].
              + apply B. rewrite Rl. reflexivity.
              + intros e1 X. apply B. rewrite <- Rl. exact X.
            - destruct ho; cbn in Rl; tauto.
            - rewrite T. replace (k + taken (o_ev out) e) with (sum (w_at i) vals + j + (kr + taken (o_ev out) e)) by lia. exact W'.
            - intros X. rewrite T. auto. }
          assert (Rest : forall r : dresult vt (estate (V:=V) (D:=D)),
            (is_end e = false -> r = Ok (o, h') -> enum_answer e k o) ->
            (if is_end e then
              let* (v, h1) := enum_finish_state defaultable ms st h in
              Ok (DOut (AData v) (if elem then DNone else DContinue e) false, h1)
            else r) = Ok (o, h') -> enum_answer e k o).
          { intros r R. destruct (is_end e) eqn:Ee; [|exact (R eq_refl)]. intros H. bind H. injection H as <- _.
            assert (T : taken (if elem then DNone else DContinue e) e = 0).
            { destruct elem; [|reflexivity]. destruct e; try discriminate. reflexivity. }
            split; [split; [|split; [|split]]|]; cbn; auto; try discriminate.
            - destruct elem; auto with frame.
            - rewrite T, Nat.add_0_r. eapply enum_finish_count; eauto. }
          cbn [enum_loop]. destruct st as [|i vals fb [d|]|v|]; [| | | |discriminate].
          - apply Rest. intros Ee H. apply obind_ok in H. destruct H as ([[ho st'] h1] & E & H).
            destruct (find_suitable_count _ _ _ _ _ Ee E) as (B & Y & Ne & W' & In). cbn in W. subst k.
            revert H. apply Go; auto.
          - destruct (nth_error ms i) as [m|] eqn:N; [|discriminate].
            destruct W as (S & jf & jc & Wf & Wc & Kq). intros H.
            apply (Run i m vals fb _ jf jc N (S _ N) Wf Kq) in H; auto. intros out h1 E.
            destruct (k_next _ _ _ (MO _ _ N) _ _ _ _ _ _ Wc E) as (B & Ha & Ar & C).
            split; [exact B|split; [exact Ha|split; [exact C|split]]].
            + intros X. rewrite X in Ar. destruct Ar.
            + unfold given. destruct (o_art out); [destruct Ar|exact Ar|exact Ar].
          - apply Rest. intros Ee. destruct W as (S & jf & jc & Wf & Wc & Kq). cbn in Wc. subst jc.
            assert (W : estw (EAt i vals fb None) k) by (split; [exact S|exists jf, 0; cbn; auto]).
            destruct (is_tag e) eqn:Et.
            + destruct (nth_error ms i) as [m|] eqn:N; [|discriminate]. intros H.
              apply (Run i m vals fb _ jf 0 N (S _ eq_refl) Wf Kq) in H; auto. intros out h1 E.
              pose proof (MO _ _ N) as K.
              assert (O : init_ok (w_at i) (wd_at i) e out).
              { destruct (k_kind _ _ _ K) as [Kk|Kk]; rewrite Kk in E.
                - unfold init_start_tag in E. destruct (check_tag _ _ _ _) eqn:Ck.
                  + eapply (k_init _ _ _ K); [intros _; exact Ck|exact E].
                  + injection E as <- _. split; [|split]; cbn; auto with frame. exact (k_any _ _ _ K).
                - eapply (k_init _ _ _ K); [rewrite Kk; discriminate|exact E]. }
              pose proof (init_calm _ _ _ _ Ee O) as C. destruct O as (B & Ha & O).
              split; [exact B|split; [exact Ha|split; [exact C|split]]].
              * intros X. rewrite X in O. exact O.
              * unfold given. destruct (o_art out); exact O.
            + assert (T : taken DNone e = 0) by (destruct e; try discriminate; reflexivity).
              destruct (mixed && is_chars e); apply enum_end_count; auto with frame;
                try (rewrite ?T; rewrite Nat.add_0_r; exact W); cbn; auto; discriminate.
          - apply Rest. intros Ee. apply enum_end_count; auto with frame.
            + change (taken (DContinue e) e) with 0. rewrite Nat.add_0_r. exact W.
        Qed.

        Lemma enum_next_count st k h e o h' : estw st k -> enum_next elem false mixed defaultable ms st h e = Ok (o, h') -> enum_answer e k o.
        Proof. apply enum_loop_count. Qed.

        Lemma enum_count : conserves elem enum_w estw (enum_deser from_start elem false mixed defaultable ms).
        Proof.
          pose proof enum_next_count as Nx. split; cbn.
          - intros h e o h'. destruct elem.
            + unfold enum_init_element.
              destruct e; try (intros [= <- _]; split; [|split; [|split]]; cbn; auto with frame; fail).
              * intros H. bind H. injection H as <- _. split; [|split]; cbn; auto with frame.
              * intros H. bind H. bind H. injection H as <- _. split; [|split]; cbn; auto with frame. repeat split.
                eapply enum_finish_count; [|eauto]. reflexivity.
            + unfold enum_init_group. intros H. bind H. injection H as <- _.
              destruct (Nx EInit 0 _ _ _ _ eq_refl E) as [(B & Ha & Ar & C) Si].
              split; [exact B|split; [exact Ha|]]. cbn. destruct (o_art a) as [|v|d]; cbn in Ar; [destruct Ar|exact Ar|].
              destruct d; cbn; auto.
          - intros d k h e o h' W H. exact (proj1 (Nx _ _ _ _ _ _ W H)).
          - intros d k h v h'. apply enum_finish_count.
        Qed.
      End Choice.

      (** ** [xs:all] *)
      Section All.
        Variables (elem : bool) (no_attrs : A).

        Definition lstw (st : lstate (D:=D)) (k : nat) : Prop := match st with LAt i d => wd_at i d k | _ => k = 0 end.
        Definition lidle (st : lstate (D:=D)) : Prop := match st with LAt _ _ => False | _ => True end.
        Definition lfbw (fb : option lstate) (k : nat) : Prop := match fb with Some f => lstw f k | None => k = 0 end.
        Definition lhs_ok (hs : lhstate (V:=V) (D:=D)) (k : nat) : Prop :=
          match hs with
          | (fields, st, fb, _) =>
              fields_ok fields /\
              exists j, k = fields_sum fields + j /\
                match fb with Some f => lidle st /\ lstw f j | None => lstw st j end
          end.
        Definition all_wd (d : ldes (V:=V) (D:=D) (A:=A)) (k : nat) : Prop :=
          fields_ok (ld_fields d) /\ exists j, k = fields_sum (ld_fields d) + j /\ lstw (ld_state d) j.
        Definition lfin (hs : lhstate (V:=V) (D:=D)) : lstate :=
          match hs with (_, st, fb, _) => match fb with Some f => f | None => st end end.

        Lemma all_state_count fields st h r h' j : fields_ok fields -> lstw st j ->
          all_finish_state ms fields st h = Ok (r, h') -> fields_ok r /\ fields_sum r = fields_sum fields + j.
        Proof.
          intros F W. unfold all_finish_state.
          destruct st as [| |i d|]; cbn in W; try (intros [= <- _]; subst j; rewrite Nat.add_0_r; auto; fail).
          destruct (nth_error ms i) as [m|] eqn:N; [|discriminate]. intros H. bind H. bind H. injection H as <- _.
          rewrite <- (k_finish _ _ _ (MO _ _ N) _ _ _ _ _ W E). eapply store_at_count; eauto.
        Qed.
        Lemma all_flush_count fields fb h r h' j : fields_ok fields -> lfbw fb j ->
          match fb with Some st => all_finish_state ms fields st h | None => Ok (fields, h) end = Ok (r, h') ->
          fields_ok r /\ fields_sum r = fields_sum fields + j.
        Proof.
          destruct fb as [f|]; cbn; [apply all_state_count|]. intros F -> [= <- _]. rewrite Nat.add_0_r. auto.
        Qed.
        Lemma lhs_mk fields st fb h j : fields_ok fields -> lidle st -> lfbw fb j ->
          lhs_ok (fields, st, fb, h) (fields_sum fields + j).
        Proof.
          intros F I W. split; [exact F|]. exists j. split; [reflexivity|]. destruct fb as [f|]; cbn in W.
          - auto.
          - subst j. destruct st; cbn in *; tauto.
        Qed.

        Lemma all_handle_count i m fields out fb h ho hs j k : nth_error ms i = Some m ->
          fields_ok fields -> lfbw fb j -> o_any out = false -> calm out -> given (o_art out) i k ->
          all_handle ms i m fields out fb h = Ok (ho, hs) ->
          hrel (o_ev out) ho /\ noend ho /\ lhs_ok hs (fields_sum fields + j + k) /\
          (exists f' fb' h', hs = (f', LNext, fb', h') /\ fields_ok f' /\ exists j', lfbw fb' j' /\
             fields_sum f' + j' = fields_sum fields + j + k /\
             (fb' = Some LInit -> o_art out = ANone) /\
             match o_art out with AData _ => fb' = None | _ => True end).
        Proof.
          intros N F W Ha C G. unfold all_handle. rewrite Ha. unfold calm in C. destruct (o_art out) as [|v|d]; cbn in G.
          - subst k. rewrite Nat.add_0_r. intros [= <- <-]. split; [|split; [|split]].
            + destruct (m_kind m); auto with count.
            + destruct (m_kind m); auto with count.
            + apply lhs_mk; auto. exact I.
            + do 3 eexists. split; [reflexivity|]. split; [exact F|]. exists j. auto.
          - intros H. bind H. bind H. injection H as <- <-.
            destruct (all_flush_count _ _ _ _ _ _ F W E) as [F' Q].
            destruct (store_at_count _ _ _ _ F' E0) as [F2 Q2].
            split; [|split; [|split]]; auto with count.
            + rewrite <- Q, <- G, <- Q2, <- (Nat.add_0_r (fields_sum a0)). apply lhs_mk; [exact F2|exact I|reflexivity].
            + do 3 eexists. split; [reflexivity|]. split; [exact F2|]. exists 0. split; [reflexivity|]. split; [lia|]. split; [discriminate|reflexivity].
          - intros H. bind H. injection H as <- <-. destruct (all_flush_count _ _ _ _ _ _ F W E) as [F' Q].
            split; [|split; [|split]]; auto with count.
            + rewrite <- Q. apply lhs_mk; auto. exact I.
            + do 3 eexists. split; [reflexivity|]. split; [exact F'|]. exists k. split; [exact G|]. split; [lia|]. split; [discriminate|exact I].
        Qed.

        (** An answer of the handlers for an event that is no end tag. *)
        Definition lfound (e : event) (k : nat) (ho : hout) (hs : lhstate (V:=V) (D:=D)) : Prop :=
          hback ho e /\ match ho with HContinue _ y | HBreak _ y => y = false end /\ noend ho /\
          lhs_ok hs (k + htaken ho e) /\ (lfin hs = LInit -> htaken ho e = 0).

        Lemma all_start i m fields out fb h ho hs e j : nth_error ms i = Some m -> is_end e = false ->
          fields_ok fields -> lfbw fb j -> init_ok (w_at i) (wd_at i) e out ->
          all_handle ms i m fields out fb h = Ok (ho, hs) ->
          lfound e (fields_sum fields + j) ho hs /\
          (exists f' fb' h', hs = (f', LNext, fb', h') /\ fields_ok f' /\ exists j', lfbw fb' j' /\
             fields_sum f' + j' = fields_sum fields + j + htaken ho e).
        Proof.
          intros N Ee F W O H. pose proof (init_calm _ _ _ _ Ee O) as C. destruct O as (B & Ha & O).
          assert (G : given (o_art out) i (taken (o_ev out) e)) by (unfold given; destruct (o_art out); exact O).
          destruct (all_handle_count _ _ _ _ _ _ _ _ _ _ N F W Ha C G H) as (R & Ne & Hs & f' & fb' & h1 & -> & F' & j' & W' & Q & In & _).
          pose proof (htaken_rel _ _ e R) as T. rewrite <- T in Hs, Q. split.
          - split; [|split; [|split; [|split]]]; auto.
            + destruct ho as [e' y|de y]; cbn in R |- *; destruct R as [R _].
              * apply B. rewrite R. reflexivity.
              * intros e1 X. apply B. rewrite <- R. exact X.
            + destruct ho; cbn in R; tauto.
            + cbn. destruct fb' as [f|]; [|discriminate]. intros ->. rewrite T. rewrite (In eq_refl) in O. exact O.
          - do 3 eexists. split; [reflexivity|]. split; [exact F'|]. exists j'. auto.
        Qed.

        Lemma all_groups_count : forall l i e fields fb h r j, (forall j m, nth_error l j = Some m -> nth_error ms (i + j) = Some m) ->
          is_end e = false -> fields_ok fields -> lfbw fb j ->
          all_groups ms i l e false fields fb h = Ok r ->
          match r with
          | inl (ho, hs) => lfound e (fields_sum fields + j) ho hs
          | inr (e', any, (fields', fb', _)) => e' = e /\ any = false /\ fields_ok fields' /\
              exists j', lfbw fb' j' /\ fields_sum fields' + j' = fields_sum fields + j
          end.
        Proof.
          induction l as [|m l IH]; cbn [all_groups]; intros i e fields fb h r j L Ee F W H.
          - injection H as <-. split; [reflexivity|]. split; [reflexivity|]. split; [exact F|]. eauto.
          - assert (N : nth_error ms i = Some m) by (rewrite <- (Nat.add_0_r i); apply L; reflexivity).
            assert (L' : forall j m', nth_error l j = Some m' -> nth_error ms (Datatypes.S i + j) = Some m').
            { intros j0 m' N'. replace (Datatypes.S i + j0) with (i + Datatypes.S j0) by lia. apply L. exact N'. }
            destruct (sel_group (m_kind m)) eqn:Sm; [|eapply IH; eauto].
            bind H. apply obind_ok in H. destruct H as ([ho hs] & H1 & H2).
            assert (O : init_ok (w_at i) (wd_at i) e a).
            { eapply (k_init _ _ _ (MO _ _ N)); [|exact E]. intros X. rewrite X in Sm. discriminate. }
            destruct (all_start _ _ _ _ _ _ _ _ _ _ N Ee F W O H1) as (Fo & f' & fb' & h2 & -> & F' & j' & W' & Q).
            destruct ho as [e' y|de y].
            + destruct Fo as (Hb & Hy & _). cbn in Hb, Hy. subst e' y. cbn in Q.
              pose proof (IH _ _ _ _ _ _ _ L' Ee F' W' H2) as R. replace (fields_sum f' + j') with (fields_sum fields + j) in R by lia.
              exact R.
            + injection H2 as <-. exact Fo.
        Qed.

        Lemma all_find_count e fields fb h ho hs j : is_end e = false -> fields_ok fields -> lfbw fb j ->
          all_find false ms e fields fb h = Ok (ho, hs) -> lfound e (fields_sum fields + j) ho hs.
        Proof.
          intros Ee F W. unfold all_find. rewrite first_text_none. cbn [orb].
          assert (Re : forall e' (y : bool) f' fb' h1 j', e' = e -> y = false -> fields_ok f' -> lfbw fb' j' ->
            fields_sum f' + j' = fields_sum fields + j ->
            @Ok kind _ (return_to_parent e' y, (f', match fb' with Some st => st | None => @LInit D end, @None (lstate (D:=D)), h1)) = Ok (ho, hs) ->
            lfound e (fields_sum fields + j) ho hs).
          { intros e' y f' fb' h1 j' -> -> F' W' Q [= <- <-]. split; [|split; [|split; [|split]]]; cbn; auto with frame.
            split; [exact F'|]. exists j'. split; [lia|]. destruct fb'; exact W'. }
          destruct (is_tag e); [|eapply Re; eauto].
          destruct (find_tag 0 ms e h) as [[i m]|] eqn:Ft.
          - destruct (find_tag_at ms 0 _ _ _ _ (fun j m N => N) Ft) as [N Ck]. intros H. bind H.
            assert (O : init_ok (w_at i) (wd_at i) e a) by (eapply (k_init _ _ _ (MO _ _ N)); [intros _; exact Ck|exact E]).
            exact (proj1 (all_start _ _ _ _ _ _ _ _ _ _ N Ee F W O H)).
          - intros H. apply obind_ok in H. destruct H as (r & E & H).
            apply (all_groups_count ms 0 _ _ _ _ _ j) in E; [|intros j0 m N; exact N|exact Ee|exact F|exact W].
            destruct r as [[ho1 hs1]|[[e1 any1] [[f1 fb1] h1]]].
            + injection H as <- <-. exact E.
            + destruct E as (-> & -> & F' & j' & W' & Q). revert H. eapply Re; eauto.
        Qed.

        Definition all_answer (e : event) (k : nat) (o : dout (A * list (list V)) (ldes (V:=V) (D:=D) (A:=A))) : Prop :=
          next_ok seq_w all_wd e k o /\
          match o_art o with ADes d => ld_state d = LInit -> taken (o_ev o) e = 0 | _ => True end.

        Lemma all_end_count a hs ev e k r h' : back ev e ->
          lhs_ok hs (k + taken ev e) -> (lfin hs = LInit -> taken ev e = 0) -> noend (HBreak ev false) ->
          all_end a hs ev false = Ok (r, h') -> all_answer e k r.
        Proof.
          destruct hs as [[[fields st] fb] h]. intros B (F & j & Q & W) I C [= <- _].
          split; [split; [|split; [|split]]|]; cbn; auto.
          split; [exact F|]. exists j. cbn. split; [exact Q|]. destruct fb; tauto.
        Qed.

        Lemma all_loop_count fuel (a : A) : forall hs e k o h', lhs_ok hs k ->
          (is_end e = true -> snd (fst hs) = None) ->
          all_loop elem false ms fuel a hs e = Ok (o, h') -> all_answer e k o.
        Proof.
          induction fuel as [|fuel IH]; intros hs e k o h' Hs Nf; [discriminate|].
          destruct hs as [[[fields st] fb] h]. pose proof Hs as (F & j & -> & W). cbn in Nf.
          assert (Go : forall ho hs', hback ho e -> match ho with HContinue _ y | HBreak _ y => y = false end -> noend ho ->
            lhs_ok hs' (fields_sum fields + j + htaken ho e) -> (lfin hs' = LInit -> htaken ho e = 0) ->
            (is_end e = true -> match ho with HContinue _ _ => snd (fst hs') = None | _ => True end) ->
            match ho with
            | HContinue e' _ => all_loop elem false ms fuel a hs' e'
            | HBreak de y => all_end a hs' de y
            end = Ok (o, h') -> all_answer e (fields_sum fields + j) o).
          { intros [e' y|de y] hs'; cbn; intros B -> Ne W' In Nf'.
            - subst e'. rewrite Nat.add_0_r in W'. apply IH; auto.
            - apply all_end_count; auto. }
          assert (Rest : lidle st -> (if is_end e then
              let* (vals, h1) := finish_fields ms fields h in
              Ok (DOut (AData (a, vals)) (if elem then DNone else DContinue e) false, h1)
            else
              let* (ho, hs') := all_find false ms e fields (get_or_insert fb st) h in
              match ho with
              | HContinue e' _ => all_loop elem false ms fuel a hs' e'
              | HBreak de y => all_end a hs' de y
              end) = Ok (o, h') -> all_answer e (fields_sum fields + j) o).
          { intros Id. destruct (is_end e) eqn:Ee.
            - rewrite (Nf eq_refl) in W. intros H. bind H. injection H as <- _.
              assert (j = 0) by (destruct st; cbn in *; tauto). subst j.
              assert (T : taken (if elem then DNone else DContinue e) e = 0).
              { destruct elem; [|reflexivity]. destruct e; try discriminate. reflexivity. }
              split; [split; [|split; [|split]]|]; cbn; auto.
              + destruct elem; auto with frame.
              + unfold seq_w. cbn [snd]. rewrite (finish_fields_count _ _ _ _ F E), T. lia.
            - intros H. apply obind_ok in H. destruct H as ([ho hs'] & E & H).
              assert (W' : lfbw (get_or_insert fb st) j) by (destruct fb; cbn; tauto).
              destruct (all_find_count _ _ _ _ _ _ _ Ee F W' E) as (B & Y & Ne & Hs' & In).
              revert H. apply Go; auto. discriminate. }
          cbn [all_loop]. destruct st as [| |i d|]; [exact (Rest I)|exact (Rest I)| |discriminate].
          destruct (nth_error ms i) as [m|] eqn:N; [|discriminate].
          assert (Wd : wd_at i d j /\ fb = None) by (destruct fb; [destruct W as [[] _]|auto]).
          destruct Wd as [Wd ->]. intros H. apply obind_ok in H. destruct H as ([out h1] & E & H).
          destruct (k_next _ _ _ (MO _ _ N) _ _ _ _ _ _ Wd E) as (B & Ha & Ar & C).
          apply obind_ok in H. destruct H as ([ho hs'] & E0 & H).
          assert (G : given (o_art out) i (j + taken (o_ev out) e)).
          { unfold given. destruct (o_art out); [destruct Ar|exact Ar|exact Ar]. }
          destruct (all_handle_count i m fields out None h1 ho hs' 0 _ N F eq_refl Ha C G E0) as (R & Ne & Hs' & f' & fb' & h2 & -> & F' & j' & W' & Q & In & Nn).
          pose proof (htaken_rel _ _ e R) as T. revert H. apply Go; auto.
          - destruct ho as [e' y|de y]; cbn in R |- *; destruct R as [R _].
            + apply B. rewrite R. reflexivity.
            + intros e1 X. apply B. rewrite <- R. exact X.
          - destruct ho; cbn in R; tauto.
          - rewrite T. replace (fields_sum fields + j + taken (o_ev out) e) with (fields_sum fields + 0 + (j + taken (o_ev out) e)) by lia.
            exact Hs'.
          - cbn. destruct fb' as [f|]; [|discriminate]. intros ->. exfalso. rewrite (In eq_refl) in Ar. exact Ar.
          - intros Ee. destruct ho as [e' y|]; [|exact I]. cbn in R |- *. destruct R as [R _].
            assert (e' = e) by (apply B; rewrite R; reflexivity). subst e'.
            unfold calm in C. rewrite R, Ee in C. destruct (o_art out); [discriminate|exact Nn|discriminate].
        Qed.

        Lemma all_finish_count d k h v h' : all_wd d k -> all_finish (A:=A) ms d h = Ok (v, h') -> seq_w v = k.
        Proof.
          intros (F & j & -> & W) H. unfold all_finish in H. bind H. bind H. injection H as <- _.
          destruct (all_state_count _ _ _ _ _ _ F W E) as [F' Q]. unfold seq_w. cbn [snd].
          rewrite (finish_fields_count _ _ _ _ F' E0). exact Q.
        Qed.
        Lemma all_new_count (a : A) : all_wd (all_new ms a) 0.
        Proof. destruct no_fields_ok as [F Q]. split; [exact F|]. exists 0. cbn. rewrite Q. auto. Qed.
        Lemma all_next_count d k h e o h' : all_wd d k -> all_next (A:=A) elem false ms d h e = Ok (o, h') -> all_answer e k o.
        Proof. intros (F & W). apply all_loop_count; [split; [exact F|exact W]|reflexivity]. Qed.

        Lemma all_count : conserves elem seq_w all_wd (all_deser from_start elem no_attrs false ms).
        Proof.
          pose proof all_next_count as Nx. split; cbn.
          - intros h e o h'. destruct elem.
            + unfold all_init_element.
              destruct e; try (intros [= <- _]; split; [|split; [|split]]; cbn; auto with frame; fail).
              * intros H. bind H. injection H as <- _. split; [|split]; cbn; auto with frame. repeat split; auto; apply all_new_count.
              * intros H. bind H. bind H. injection H as <- _. split; [|split]; cbn; auto with frame. repeat split.
                eapply all_finish_count; [apply all_new_count|eauto].
            + unfold all_init_group. intros H. bind H. injection H as <- _.
              destruct (Nx _ _ _ _ _ _ (all_new_count no_attrs) E) as [(B & Ha & Ar & C) Si].
              split; [exact B|split; [exact Ha|]]. cbn. destruct (o_art a) as [|v|d]; cbn in Ar; [destruct Ar|exact Ar|].
              destruct (ld_state d) eqn:Q; cbn; auto.
          - intros d k h e o h' W H. exact (proj1 (Nx _ _ _ _ _ _ W H)).
          - intros d k h v h'. apply all_finish_count.
        Qed.
      End All.
    End Members.

    (** ** Structs around a content type *)
    Section Content.
      Variables (elem : bool) (no_attrs : A) (m : member V D) (w : V -> nat) (wd : D -> nat -> Prop).
      Hypothesis K : member_ok m w wd.
      Hypothesis KG : m_kind m = KindGroup.

      Definition cstw (st : cstate (D:=D)) (k : nat) : Prop := match st with KAt d => wd d k | _ => k = 0 end.
      Definition cidle (st : cstate (D:=D)) : Prop := match st with KAt _ => False | _ => True end.
      Definition cfbw (fb : option cstate) (k : nat) : Prop := match fb with Some f => cstw f k | None => k = 0 end.
      Definition cfin (hs : chstate (V:=V) (D:=D)) : cstate :=
        match hs with (_, st, fb, _) => match fb with Some f => f | None => st end end.
      Definition chs_ok (hs : chstate (V:=V) (D:=D)) (k : nat) : Prop :=
        match hs with
        | (vals, st, fb, _) =>
            single_ok m vals /\
            exists j, k = sum w vals + j /\
              match fb with Some f => cidle st /\ cstw f j | None => cstw st j end
        end.
      Definition cdes_w (v : A * list V) : nat := sum w (snd v).
      Definition cdes_wd (d : cdes (V:=V) (D:=D) (A:=A)) (k : nat) : Prop :=
        single_ok m (cd_vals d) /\ exists j, k = sum w (cd_vals d) + j /\ cstw (cd_state d) j.

      Lemma content_store_count l v r : single_ok m l -> content_store m l v = Ok r -> sum w r = sum w l + w v /\ single_ok m r.
      Proof.
        intros S. unfold content_store, single_ok. destruct (m_occ m); try discriminate.
        - destruct l; [|discriminate]. intros [= <-]. cbn. split; [lia|intros _; auto].
        - destruct l; [|discriminate]. intros [= <-]. cbn. split; [lia|intros _; auto].
        - intros [= <-]. rewrite sum_app. cbn. split; [lia|discriminate].
        - intros [= <-]. rewrite sum_app. cbn. split; [lia|discriminate].
      Qed.
      Lemma content_vals_count l h r h' : single_ok m l -> content_finish_vals m l h = Ok (r, h') -> sum w r = sum w l.
      Proof.
        intros S. pose proof (k_default _ _ _ K) as F. unfold content_finish_vals, single_ok in *. destruct (m_occ m).
        - discriminate.
        - specialize (S eq_refl). destruct (m_default m) as [df|].
          + intros H. bind H. injection H as <- _. cbn. rewrite Nat.add_0_r. eapply default_one; eauto.
          + destruct l as [|u [|]]; cbn in *; try discriminate; [intros [= <- _]; reflexivity|]. exfalso. lia.
        - intros [= <- _]. reflexivity.
        - destruct (m_default m) as [df|].
          + apply push_count. intros h0 v h1. apply F. reflexivity.
          + intros H. bind H. injection H as <- _. apply vec_same in E. subst. reflexivity.
        - destruct (m_default m) as [df|].
          + apply arr_count. intros h0 v h1. apply F. reflexivity.
          + intros H. bind H. injection H as <- _. apply arr_same in E. subst. reflexivity.
      Qed.
      Lemma content_state_count vals st h r h' j : single_ok m vals -> cstw st j ->
        content_finish_state m vals st h = Ok (r, h') -> sum w r = sum w vals + j /\ single_ok m r.
      Proof.
        intros S W. unfold content_finish_state. destruct st; cbn in W; try (intros [= <- _]; subst j; split; [lia|exact S]).
        intros H. bind H. bind H. injection H as <- _. rewrite <- (k_finish _ _ _ K _ _ _ _ _ W E). apply content_store_count; auto.
      Qed.
      Lemma content_flush_count vals fb h r h' j : single_ok m vals -> cfbw fb j ->
        match fb with Some st => content_finish_state m vals st h | None => Ok (vals, h) end = Ok (r, h') ->
        sum w r = sum w vals + j /\ single_ok m r.
      Proof.
        destruct fb as [f|]; cbn; [apply content_state_count|]. intros S -> [= <- _]. split; [lia|exact S].
      Qed.
      Lemma cdes_finish_count d k h v h' : cdes_wd d k -> cdes_finish m d h = Ok (v, h') -> cdes_w v = k.
      Proof.
        intros (S & j & -> & W) H. unfold cdes_finish in H. bind H. bind H. injection H as <- _.
        destruct (content_state_count _ _ _ _ _ _ S W E) as [Q S']. unfold cdes_w. cbn [snd].
        rewrite (content_vals_count _ _ _ _ S' E0). exact Q.
      Qed.

      Lemma content_handle_count vals out fb h ho hs j k :
        single_ok m vals -> cfbw fb j -> o_any out = false -> calm out ->
        match o_art out with ANone => k = 0 | art => art_ok w wd art k end ->
        content_handle elem m vals out fb h = Ok (ho, hs) ->
        hrel (o_ev out) ho /\
        (noend ho \/ (need_done elem m = true /\ cfin hs = KDone)) /\
        chs_ok hs (sum w vals + j + k) /\
        (cfin hs = KInit -> o_art out = ANone) /\
        match o_art out with AData _ => snd (fst hs) = None | _ => True end.
      Proof.
        intros S W Ha C G. unfold content_handle. rewrite Ha. unfold calm in C.
        destruct (o_art out) as [|v|d]; cbn in G.
        - subst k. rewrite Nat.add_0_r.
          assert (Nb : noend (HBreak (o_ev out) false)) by (destruct (o_ev out); exact C || exact I).
          assert (Bk : forall ho0, hrel (o_ev out) ho0 -> noend ho0 ->
            @Ok kind _ (ho0, (vals, match fb with Some f => f | None => @KNext D end, @None (cstate (D:=D)), h)) = Ok (ho, hs) ->
            hrel (o_ev out) ho /\ (noend ho \/ (need_done elem m = true /\ cfin hs = KDone)) /\ chs_ok hs (sum w vals + j) /\
            (cfin hs = KInit -> @ANone V D = ANone) /\ True).
          { intros ho0 R Ne [= <- <-]. split; [exact R|]. split; [left; exact Ne|]. split; [|auto].
            split; [exact S|]. exists j. split; [reflexivity|]. destruct fb; exact W. }
          assert (Ki : @Ok kind _ (HBreak (o_ev out) false, (vals, @KInit D, fb, h)) = Ok (ho, hs) ->
            hrel (o_ev out) ho /\ (noend ho \/ (need_done elem m = true /\ cfin hs = KDone)) /\ chs_ok hs (sum w vals + j) /\
            (cfin hs = KInit -> @ANone V D = ANone) /\ True).
          { intros [= <- <-]. split; [auto with count|]. split; [left; exact Nb|]. split; [|auto].
            split; [exact S|]. exists j. split; [reflexivity|]. destruct fb; cbn in *; auto. }
          destruct elem; [apply Bk; auto with count|]. destruct (Nat.eqb (m_min m) 0 || is_some (m_default m)); [apply Bk; auto with count|].
          destruct (m_occ m); try exact Ki; (destruct (Nat.ltb _ _); apply Bk; auto with count).
        - intros H. bind H. destruct (content_flush_count _ _ _ _ _ _ S W E) as [Q S1]. bind H.
          destruct (content_store_count _ _ _ S1 E0) as [Q2 S2].
          assert (Cw : forall st h, cidle st -> chs_ok (a0, st, None, h) (sum w vals + j + k)).
          { intros st h0 Id. split; [exact S2|]. exists 0. split; [lia|]. destruct st; cbn in *; tauto. }
          assert (Next : @Ok kind _ (from_event (o_ev out) false, (a0, @KNext D, @None (cstate (D:=D)), b)) = Ok (ho, hs) ->
            hrel (o_ev out) ho /\ (noend ho \/ (need_done elem m = true /\ cfin hs = KDone)) /\ chs_ok hs (sum w vals + j + k) /\
            (cfin hs = KInit -> AData (D:=D) v = ANone) /\ snd (fst hs) = None).
          { intros [= <- <-]. split; [auto with count|]. split; [auto with count|]. split; [apply Cw; exact I|]. split; [discriminate|reflexivity]. }
          assert (Done : need_done elem m = true -> @Ok kind _ (HBreak (o_ev out) false, (a0, @KDone D, @None (cstate (D:=D)), b)) = Ok (ho, hs) ->
            hrel (o_ev out) ho /\ (noend ho \/ (need_done elem m = true /\ cfin hs = KDone)) /\ chs_ok hs (sum w vals + j + k) /\
            (cfin hs = KInit -> AData (D:=D) v = ANone) /\ snd (fst hs) = None).
          { intros Nd [= <- <-]. split; [auto with count|]. split; [right; split; [exact Nd|reflexivity]|].
            split; [apply Cw; exact I|]. split; [discriminate|reflexivity]. }
          destruct elem eqn:El; [exact (Next H)|].
          assert (Nd : (exists n, m_max m = Bounded n) -> need_done false m = true).
          { intros [n Mx]. unfold need_done. rewrite Mx. reflexivity. }
          destruct (m_occ m) eqn:Oc.
          + destruct (m_max m) as [|mx]; [exact (Next H)|].
            destruct (Nat.ltb _ _); [exact (Next H)|exact (Done (Nd (ex_intro _ mx eq_refl)) H)].
          + exact (Done (Nd (occ_bounded m (or_introl Oc))) H).
          + exact (Done (Nd (occ_bounded m (or_intror Oc))) H).
          + destruct (m_max m) as [|mx]; [exact (Next H)|].
            destruct (Nat.ltb _ _); [exact (Next H)|exact (Done (Nd (ex_intro _ mx eq_refl)) H)].
          + destruct (m_max m) as [|mx]; [exact (Next H)|].
            destruct (Nat.ltb _ _); [exact (Next H)|exact (Done (Nd (ex_intro _ mx eq_refl)) H)].
        - intros H. bind H. destruct (content_flush_count _ _ _ _ _ _ S W E) as [Q S1].
          assert (Stop : @Ok kind _ (if elem then from_event_end (o_ev out) false else HBreak (o_ev out) false, (a, KAt d, @None (cstate (D:=D)), b)) = Ok (ho, hs) ->
            hrel (o_ev out) ho /\ (noend ho \/ (need_done elem m = true /\ cfin hs = KDone)) /\ chs_ok hs (sum w vals + j + k) /\
            (cfin hs = KInit -> ADes (T:=V) d = ANone) /\ True).
          { intros [= <- <-]. split; [destruct elem; auto with count|].
            split; [left; destruct elem; auto with count; destruct (o_ev out); exact C || exact I|].
            split; [|split; [discriminate|exact I]]. split; [exact S1|]. exists k. split; [lia|exact G]. }
          assert (More : @Ok kind _ (from_event (o_ev out) false, (a, @KNext D, Some (KAt d), b)) = Ok (ho, hs) ->
            hrel (o_ev out) ho /\ (noend ho \/ (need_done elem m = true /\ cfin hs = KDone)) /\ chs_ok hs (sum w vals + j + k) /\
            (cfin hs = KInit -> ADes (T:=V) d = ANone) /\ True).
          { intros [= <- <-]. split; [auto with count|]. split; [auto with count|].
            split; [|split; [discriminate|exact I]]. split; [exact S1|]. exists k. split; [lia|]. split; [exact I|exact G]. }
          destruct (m_occ m); try exact (Stop H);
            (destruct (m_max m) as [|mx]; [exact (More H)|destruct (Nat.ltb _ _); [exact (More H)|exact (Stop H)]]).
      Qed.

      Definition cdes_answer (e : event) (k : nat) (o : dout (A * list V) (cdes (V:=V) (D:=D) (A:=A))) : Prop :=
        next_ok cdes_w cdes_wd e k o /\
        match o_art o with ADes d => cd_state d = KInit -> taken (o_ev o) e = 0 | _ => True end.

      Lemma content_end_count a hs ev e k r h' : back ev e ->
        chs_ok hs (k + taken ev e) -> (cfin hs = KInit -> taken ev e = 0) ->
        (noend (HBreak ev false) \/ (need_done elem m = true /\ cfin hs = KDone)) ->
        content_end elem m a hs ev false = Ok (r, h') -> cdes_answer e k r.
      Proof.
        destruct hs as [[[vals st] fb] h]. intros B (S & j & Q & W) In Ne. cbn [cfin] in In, Ne. unfold content_end.
        assert (W' : cstw (match fb with Some f => f | None => st end) j) by (destruct fb; tauto).
        set (st' := match fb with Some f => f | None => st end) in *.
        assert (Ad : noend (HBreak ev false) -> Ok (DOut (ADes (CDes a vals st')) ev false, h) = @Ok kind _ (r, h') -> cdes_answer e k r).
        { intros Ne' [= <- _]. split; [split; [|split; [|split]]|]; cbn; auto. split; [exact S|]. exists j. split; [exact Q|exact W']. }
        destruct (need_done elem m) eqn:Nd.
        - destruct st' eqn:Es; try (destruct Ne as [Ne|[_ X]]; [exact (Ad Ne)|discriminate]).
          intros H. bind H. injection H as <- _. cbn in W'. subst j.
          split; [split; [|split; [|split]]|]; cbn; auto.
          apply (cdes_finish_count (CDes a vals KDone) _ h (a0, b0) b); [|exact E]. split; [exact S|]. exists 0. split; [exact Q|reflexivity].
        - destruct Ne as [Ne|[X _]]; [exact (Ad Ne)|discriminate].
      Qed.

      Lemma content_loop_count fuel (a : A) : forall hs e k o h', chs_ok hs k ->
        (is_end e = true -> snd (fst hs) = None) ->
        content_loop elem m fuel a hs e = Ok (o, h') -> cdes_answer e k o.
      Proof.
        induction fuel as [|fuel IH]; intros hs e k o h' Hs Nf; [discriminate|].
        destruct hs as [[[vals st] fb] h]. pose proof Hs as (S & j & -> & W). cbn in Nf.
        assert (Run : forall (r : dresult V D) fb0 j' kr, cfbw fb0 j' -> j = j' + kr ->
          (forall out h1, r = Ok (out, h1) -> back (o_ev out) e /\ o_any out = false /\ calm out /\
             (o_art out = ANone -> is_end e = false /\ taken (o_ev out) e = 0) /\
             match o_art out with ANone => kr + taken (o_ev out) e = 0 | art => art_ok w wd art (kr + taken (o_ev out) e) end) ->
          (let* (out, h1) := r in
            let* (ho, hs') := content_handle elem m vals out fb0 h1 in
            match ho with
            | HContinue e' _ => content_loop elem m fuel a hs' e'
            | HBreak de y => content_end elem m a hs' de y
            end) = Ok (o, h') -> cdes_answer e (sum w vals + j) o).
        { intros r fb0 j' kr W' -> R H. apply obind_ok in H. destruct H as ([out h1] & E & H).
          destruct (R _ _ E) as (B & Ha & C & Nn & G).
          apply obind_ok in H. destruct H as ([ho hs'] & E0 & H).
          destruct (content_handle_count _ _ _ _ _ _ _ _ S W' Ha C G E0) as (Rl & Ne & Hs' & In & Fb).
          destruct ho as [e' y|de y]; cbn in Rl; destruct Rl as [Rl Ry].
          - assert (e' = e) by (apply B; rewrite Rl; reflexivity). subst e'.
            replace (sum w vals + (j' + kr)) with (sum w vals + j' + (kr + taken (o_ev out) e)) by (rewrite Rl; cbn; lia).
            eapply IH; [exact Hs'| |exact H].
            intros Ee. unfold calm in C. rewrite Rl, Ee in C. destruct (o_art out); [discriminate|exact Fb|discriminate].
          - subst y. eapply content_end_count; [| | | |exact H].
            + intros e1 X. apply B. rewrite <- Rl. exact X.
            + rewrite (taken_into x _ _ e Rl).
              replace (sum w vals + (j' + kr) + taken (o_ev out) e) with (sum w vals + j' + (kr + taken (o_ev out) e)) by lia. exact Hs'.
            + intros X. rewrite (taken_into x _ _ e Rl). apply Nn. auto.
            + exact Ne. }
        assert (Fin : cidle st -> is_end e = true -> (let* (vs, h1) := content_finish_vals m vals h in
            Ok (DOut (AData (a, vs)) (if elem then DNone else DContinue e) false, h1)) = Ok (o, h') -> cdes_answer e (sum w vals + j) o).
        { intros Id Ee. rewrite (Nf Ee) in W. intros H. bind H. injection H as <- _.
          assert (j = 0) by (destruct st; cbn in *; tauto). subst j.
          assert (T : taken (if elem then DNone else DContinue e) e = 0).
          { destruct elem; [|reflexivity]. destruct e; try discriminate. reflexivity. }
          split; [split; [|split; [|split]]|]; cbn; auto.
          - destruct elem; auto with frame.
          - change (sum w a0 = sum w vals + 0 + taken (if elem then DNone else DContinue e) e).
            rewrite (content_vals_count _ _ _ _ S E), T. lia. }
        assert (Init : is_end e = false -> cidle st ->
          (let* (out, h1) := de_init (m_deser m) h e in
            let* (ho, hs') := content_handle elem m vals out (get_or_insert fb st) h1 in
            match ho with
            | HContinue e' _ => content_loop elem m fuel a hs' e'
            | HBreak de y => content_end elem m a hs' de y
            end) = Ok (o, h') -> cdes_answer e (sum w vals + j) o).
        { intros Ee Id. apply (Run _ _ j 0); [destruct fb; cbn; tauto|lia|]. intros out h1 E.
          assert (O : init_ok w wd e out) by (eapply (k_init _ _ _ K); [rewrite KG; discriminate|exact E]).
          pose proof (init_calm _ _ _ _ Ee O) as C. destruct O as (B & Ha & O).
          split; [exact B|split; [exact Ha|split; [exact C|split]]].
          - intros X. rewrite X in O. auto.
          - destruct (o_art out); exact O. }
        cbn [content_loop]. destruct st as [| |d| |].
        - destruct (is_end e) eqn:Ee; [exact (Fin I eq_refl)|exact (Init eq_refl I)].
        - destruct (is_end e) eqn:Ee; [exact (Fin I eq_refl)|exact (Init eq_refl I)].
        - assert (Wd : wd d j /\ fb = None) by (destruct fb; [destruct W as [[] _]|auto]).
          destruct Wd as [Wd ->]. apply (Run _ None 0 j eq_refl eq_refl). intros out h1 E.
          destruct (k_next _ _ _ K _ _ _ _ _ _ Wd E) as (B & Ha & Ar & C).
          split; [exact B|split; [exact Ha|split; [exact C|split]]].
          + intros X. rewrite X in Ar. destruct Ar.
          + destruct (o_art out); [destruct Ar|exact Ar|exact Ar].
        - destruct (is_end e) eqn:Ee; [exact (Fin I eq_refl)|].
          apply content_end_count; auto with frame.
          + change (taken (DContinue e) e) with 0. rewrite Nat.add_0_r. exact Hs.
        - discriminate.
      Qed.

      Lemma cdes_new_count (a : A) : cdes_wd (cdes_new (V:=V) (D:=D) a) 0.
      Proof. split; [intros _; cbn; lia|]. exists 0. cbn. auto. Qed.
      Lemma cdes_next_count d k h e o h' : cdes_wd d k -> cdes_next (A:=A) elem m d h e = Ok (o, h') -> cdes_answer e k o.
      Proof. intros (F & W). apply content_loop_count; [split; [exact F|exact W]|reflexivity]. Qed.

      Lemma cdes_count : conserves elem cdes_w cdes_wd (cdes_deser from_start elem no_attrs m).
      Proof.
        pose proof cdes_next_count as Nx. split; cbn.
        - intros h e o h'. destruct elem.
          + unfold cdes_init_element.
            destruct e; try (intros [= <- _]; split; [|split; [|split]]; cbn; auto with frame; fail).
            * intros H. bind H. injection H as <- _. split; [|split]; cbn; auto with frame. repeat split; auto; apply cdes_new_count.
            * intros H. bind H. bind H. injection H as <- _. split; [|split]; cbn; auto with frame. repeat split.
              exact (cdes_finish_count _ _ _ _ _ (cdes_new_count a) E0).
          + unfold cdes_init_group. intros H. bind H. injection H as <- _.
            destruct (Nx _ _ _ _ _ _ (cdes_new_count no_attrs) E) as [(B & Ha & Ar & C) Si].
            split; [exact B|split; [exact Ha|]]. cbn. destruct (o_art a) as [|v|d]; cbn in Ar; [destruct Ar|exact Ar|].
            destruct (cd_state d) eqn:Q; cbn; auto.
        - intros d k h e o h' W H. exact (proj1 (Nx _ _ _ _ _ _ W H)).
        - intros d k h v h'. apply cdes_finish_count.
      Qed.
    End Content.

    (** ** Types without elements *)
    Lemma empty_count mixed : conserves true (fun _ : A => 0) (fun _ k => k = 0) (empty_deser from_start false mixed).
    Proof.
      split; cbn.
      - intros h e o h'. unfold empty_init.
        destruct e; try (intros [= <- _]; split; [|split; [|split]]; cbn; auto with frame; fail);
          (intros H; bind H; injection H as <- _; split; [|split]; cbn; auto with frame; repeat split).
      - intros d k h e o h' ->. unfold empty_next. destruct (is_end e) eqn:Ee.
        + intros [= <- _]. split; [|split; [|split]]; cbn; auto with frame. destruct e; try discriminate. reflexivity.
        + destruct (mixed && is_chars e) eqn:Mc; intros [= <- _]; (split; [|split; [|split]]); cbn; auto with frame; try exact I.
          apply andb_prop in Mc. destruct Mc as [_ Mc]. destruct e; try discriminate; reflexivity.
      - intros d k h v h' -> _. reflexivity.
    Qed.
  End Generated.
End Count.
