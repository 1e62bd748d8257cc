(** No element of a document is lost and none is invented: the lift of the theorem about
    single types to whole schemas and to the driver. *)
From Coq Require Import Lia.
From Verif Require Import DocModel DeSpec DocCountSpec DocProofs GenFrameProofs GenCountProofs.
Local Open Scope list_scope.

Lemma lift_count {T A W E} x own (inj : W -> val T A) (up : E -> dst T A) down (d : deser W E) w wd wv :
  (forall s, down (up s) = Some s) -> (forall v, wv (inj v) = w v) ->
  conserves x own w wd d ->
  conserves x own wv (fun st k => match down st with Some s => wd s k | None => False end) (lift inj up down d).
Proof.
  intros Du Iw [CI CN CF].
  assert (L : forall r o h', lift_result inj up r = Ok (o, h') -> exists o0, r = Ok (o0, h') /\
    o_ev o = o_ev o0 /\ o_any o = o_any o0 /\ o_art o = lift_art inj up (o_art o0)).
  { intros r o h' H. unfold lift_result in H. bind H. injection H as <- <-. eexists. split; [eassumption|]. auto. }
  split; cbn.
  - intros h e o h' H. destruct (L _ _ _ H) as (o0 & H0 & Ev & An & Ar). pose proof (CI _ _ _ _ H0) as O.
    destruct own.
    + destruct O as (B & Ha & O). unfold own_ok. rewrite Ev, An, Ar. split; [exact B|]. split; [exact Ha|].
      destruct (o_art o0) as [|v|s]; cbn in *; [exact O| |].
      * rewrite Iw. destruct O as (O1 & O2 & O3 & O4). repeat split; auto.
      * rewrite Du. exact O.
    + destruct O as (B & Ha & O). unfold init_ok. rewrite Ev, An, Ar. split; [exact B|]. split; [exact Ha|].
      destruct (o_art o0) as [|v|s]; cbn in *; [exact O|rewrite Iw; exact O|rewrite Du; exact O].
  - intros st k h e o h' Wd. destruct (down st) as [s|]; [|destruct Wd]. intros H.
    destruct (L _ _ _ H) as (o0 & H0 & Ev & An & Ar). destruct (CN _ _ _ _ _ _ Wd H0) as (B & Ha & O & C).
    unfold next_ok, calm. rewrite Ev, An, Ar. split; [exact B|]. split; [exact Ha|]. unfold calm in C.
    destruct (o_art o0) as [|v'|s']; cbn in *; [destruct O|rewrite Iw; auto|rewrite Du; auto].
  - intros st k h v h' Wd. destruct (down st) as [s|]; [|destruct Wd]. intros H. bind H. injection H as <- _.
    rewrite Iw. eapply CF; eauto.
Qed.

Lemma text_count {T} x charref utf8_ok (parse : dhelper -> bytes -> outcome kind (T * dhelper)) :
  conserves x true (fun _ => 0) (fun _ k => k = 0) (content_deser charref utf8_ok parse).
Proof.
  split; cbn.
  - intros h e o h'. unfold content_init. destruct e; try (intros [= <- <-]; cbn; split; [|split; [|split]]; cbn; auto with frame; fail).
    destruct (parse h ""%string) as [[t h1]| |] eqn:E; intros [= <- <-]. split; [|split]; cbn; auto with frame.
  - intros d k h e o h' ->. unfold content_next. destruct (piece _ _ e) as [[s| |]|] eqn:P; try discriminate.
    + intros [= <- <-]. split; [|split; [|split]]; cbn; auto with frame; try exact I.
      destruct e; try discriminate; reflexivity.
    + destruct e; try (intros [= <- <-]; split; [|split; [|split]]; cbn; auto with frame; try exact I; fail).
      destruct (content_finish parse d h) as [[t h1]| |] eqn:E; intros [= <- <-].
      split; [|split; [|split]]; cbn; auto with frame.
  - intros d k h v h' -> _. reflexivity.
Qed.

Lemma simple_count {T A} x (from_start : dhelper -> bytes -> list attr -> outcome kind (A * dhelper))
    charref utf8_ok (parse : dhelper -> bytes -> outcome kind (T * dhelper)) :
  conserves x true (fun _ => 0) (fun d k => k = 0 /\ snd d <> None) (simple_deser from_start charref utf8_ok parse).
Proof.
  destruct (text_count x charref utf8_ok parse) as [CI CN CF]. split; cbn.
  - intros h e o h'. unfold simple_init.
    destruct e; try (intros [= <- <-]; cbn; split; [|split; [|split]]; cbn; auto with frame; fail);
      (intros H; bind H; unfold simple_next, simple_handle in H; apply obind_ok in H; destruct H as ([o0 h0] & H0 & H);
       injection H as <- _; destruct (CI _ _ _ _ H0) as (B & Ha & O); split; [exact B|]; split; [exact Ha|]; cbn;
       destruct (o_art o0); cbn in *; [exact O| |]; destruct O as (O1 & O2 & O3 & O4); repeat split; auto; discriminate).
  - intros [a [c|]] k h e o h' [-> Nn]; [|destruct (Nn eq_refl)]. cbn in *. unfold simple_handle. intros H.
    apply obind_ok in H. destruct H as ([o0 h0] & H0 & H). injection H as <- _.
    destruct (CN _ _ _ _ _ _ eq_refl H0) as (B & Ha & O & C). unfold next_ok, calm in *. cbn.
    split; [exact B|]. split; [exact Ha|]. destruct (o_art o0); cbn in *; [destruct O|split; auto|].
    split; [split; [exact O|discriminate]|exact C].
  - intros [a [c|]] k h v h' [-> Nn] _; reflexivity.
Qed.

Section Schema.
  Context {T A : Type}.
  Variables (ff : flat_flags) (no_attrs : A)
    (attrs_of : nat -> dhelper -> bytes -> list attr -> outcome kind (A * dhelper))
    (parse : nat -> dhelper -> bytes -> outcome kind (T * dhelper))
    (charref : bytes -> option bytes) (utf8_ok : bytes -> bool) (env : nat -> tdef) (x : bytes).
  Notation mem := (member (val T A) (dst T A)).
  Notation weight := (val T A -> nat).

  Definition good (own : bool) (w : weight) (d : deser (val T A) (dst T A)) : Prop := exists wd, conserves x own w wd d.
  Definition mgood (m : mem) (w : weight) : Prop := exists wd, member_ok x m w wd.

  Lemma weights_at (ms : list mem) (ws : list weight) : Forall2 mgood ms ws ->
    length ws = length ms /\
    exists wds, forall i m, nth_error ms i = Some m -> member_ok x m (w_at ws i) (wd_at wds i).
  Proof.
    induction 1 as [|m w ms ws [wd M] _ [L [wds IH]]].
    - split; [reflexivity|]. exists []. intros [|i] m; discriminate.
    - split; [cbn; congruence|]. exists (wd :: wds). intros [|i] m' N; [injection N as <-; exact M|exact (IH i m' N)].
  Qed.

  (** Groups, with the default of their fields. *)
  Lemma raw_good c dfl ms ws : Forall2 mgood ms ws ->
    exists wd, conserves x false (group_named ws) wd (raw_group no_attrs c dfl ms) /\ wd (raw_new no_attrs c ms) 0.
  Proof.
    intros M. destruct (weights_at _ _ M) as (L & wds & MO). destruct c; cbn [raw_group raw_new].
    - eexists. split; [eapply lift_count; [reflexivity| |exact (seq_count x _ ms ws wds L MO false no_attrs false)]; reflexivity|].
      cbn. apply seq_new_count.
    - eexists. split; [eapply lift_count; [reflexivity| |exact (enum_count x _ ms ws wds L MO false false dfl)]; intros [i vals]; reflexivity|].
      reflexivity.
    - eexists. split; [eapply lift_count; [reflexivity| |exact (all_count x _ ms ws wds L MO false no_attrs)]; reflexivity|].
      cbn. apply all_new_count.
  Qed.

  Lemma default_zero {W} (dfl : bool) (d : deser (val T A) (dst T A)) st (w : weight) (wd : dst T A -> nat -> Prop) df h v (h' : W) :
    (forall d0 k h v h', wd d0 k -> de_finish d d0 h = Ok (v, h') -> w v = k) -> wd st 0 ->
    (if dfl then Some (de_finish d st) else None) = Some df -> forall h1, df h = Ok (v, h1) -> w v = 0.
  Proof. intros F W0. destruct dfl; [|discriminate]. intros [= <-] h1 H. eapply F; eauto. Qed.

  Lemma content_good min max c dfl ms ws : Forall2 mgood ms ws ->
    exists wd, member_ok x (content_member no_attrs min max c dfl ms) (group_named ws) wd.
  Proof.
    intros M. destruct (raw_good c dfl ms ws M) as (wd & [CI CN CF] & W0). exists wd.
    split; cbn; auto.
    - intros h e o h' _. apply CI.
    - intros df h v h' Df H. unfold raw_default in Df. destruct dfl; [|discriminate]. injection Df as <-. eapply CF; eauto.
  Qed.

  Lemma group_good c dfl ms ws : Forall2 mgood ms ws ->
    exists wd, conserves x false (if flat_for ff c then group_named ws else inside (group_named ws)) wd (group_deser ff no_attrs c dfl ms) /\
      wd (group_new ff no_attrs c ms) 0.
  Proof.
    intros M. unfold group_deser, group_new. destruct (flat_for ff c); [apply raw_good; exact M|].
    destruct (content_good 1 (Bounded 1) c dfl ms ws M) as (wd & K).
    eexists. split.
    - eapply lift_count; [reflexivity| |exact (cdes_count x _ false no_attrs _ _ wd K eq_refl)]. reflexivity.
    - cbn. apply cdes_new_count.
  Qed.

  Section Particles.
    Variables (gen : nat -> deser (val T A) (dst T A)) (type : nat -> weight).
    Hypothesis TG : forall ty, good true (type ty) (gen ty).

    Lemma particle_good : forall p, mgood (member_of ff no_attrs gen p) (particle_named ff x type p).
    Proof.
      induction p as [min max ns name ty|min max c ps IH] using particle_ind'; cbn [member_of particle_named].
      - destruct (TG ty) as [wd [CI CN CF]]. exists (fun d k => exists k0, k = (if String.eqb name x then 1 else 0) + k0 /\ wd d k0).
        split; cbn; auto; try discriminate.
        + intros h e o h' Ck H. specialize (Ck eq_refl). pose proof (check_tag_named x _ _ _ _ Ck) as Bg.
          destruct (CI _ _ _ _ H) as (B & Ha & O). split; [exact B|]. split; [exact Ha|].
          destruct (o_art o) as [|v|d]; cbn in *.
          * tauto.
          * destruct O as (Ev & _ & Wv & _). rewrite Ev. unfold taken. cbn. rewrite Bg, Wv. lia.
          * destruct O as (Ev & _ & Wv & _). rewrite Ev. unfold taken. cbn. rewrite Bg. exists 0. split; [lia|exact Wv].
        + intros d k h e o h' (k0 & -> & Wd) H. destruct (CN _ _ _ _ _ _ Wd H) as (B & Ha & O & C).
          split; [exact B|]. split; [exact Ha|]. split; [|exact C]. destruct (o_art o) as [|v|d']; cbn in *.
          * exact O.
          * lia.
          * exists (k0 + taken x (o_ev o) e). split; [lia|exact O].
        + intros d k h v h' (k0 & -> & Wd) H. rewrite (CF _ _ _ _ _ Wd H). reflexivity.
      - assert (M : Forall2 mgood (map (member_of ff no_attrs gen) ps) (map (particle_named ff x type) ps)).
        { induction IH; constructor; auto. }
        destruct (group_good c (defaultable_group c ps) _ _ M) as (wd & [CI CN CF] & W0). exists wd.
        assert (Q : forall v, (if flat_for ff c then group_named (map (particle_named ff x type) ps) v
                               else inside (group_named (map (particle_named ff x type) ps)) v) =
          (if flat_for ff c then group_named (map (particle_named ff x type) ps) else inside (group_named (map (particle_named ff x type) ps))) v)
          by (intros v; destruct (flat_for ff c); reflexivity).
        assert (Qa : forall art k, art_ok (if flat_for ff c then group_named (map (particle_named ff x type) ps) else inside (group_named (map (particle_named ff x type) ps))) wd art k ->
          art_ok (fun v => if flat_for ff c then group_named (map (particle_named ff x type) ps) v else inside (group_named (map (particle_named ff x type) ps)) v) wd art k).
        { intros [|v|d] k; cbn; auto. rewrite Q. auto. }
        split; cbn [m_any m_kind m_deser m_default m_ns m_name]; auto.
        + intros h e o h' _ H. destruct (CI _ _ _ _ H) as (B & Ha & O). split; [exact B|]. split; [exact Ha|].
          destruct (o_art o) as [|v|d]; [exact O|apply Qa; exact O|exact O].
        + intros d k h e o h' Wd H. destruct (CN _ _ _ _ _ _ Wd H) as (B & Ha & O & C).
          split; [exact B|]. split; [exact Ha|]. split; [apply Qa; exact O|exact C].
        + intros d k h v h' Wd H. rewrite Q. eapply CF; eauto.
        + intros df h v h' Df H. rewrite Q. unfold group_default in Df.
          destruct (defaultable_group c ps); [|discriminate]. injection Df as <-. eapply CF; eauto.
    Qed.
  End Particles.

  Lemma merged_flattened attributed min max c : flattened ff attributed min max c = merged ff attributed min max c.
  Proof.
    unfold flattened, merged, from_occurs. destruct min as [|[|m]], max as [|[|[|n]]]; try reflexivity.
    - cbn. destruct (Nat.eqb m n); reflexivity.
  Qed.

  Lemma type_good : forall n ty,
    good true (elements_named ff x env n ty) (type_deser ff no_attrs attrs_of parse charref utf8_ok env n ty).
  Proof.
    induction n as [|n IH]; intros ty; cbn [type_deser elements_named].
    - exists (fun _ _ => True). split; cbn; discriminate.
    - destruct (env ty) as [| |attributed min max c ps].
      + eexists. eapply lift_count; [reflexivity| |apply text_count]; reflexivity.
      + eexists. eapply lift_count; [reflexivity| |apply simple_count]; reflexivity.
      + set (gen := type_deser ff no_attrs attrs_of parse charref utf8_ok env n) in *.
        set (type := elements_named ff x env n) in *.
        assert (M : Forall2 mgood (map (member_of ff no_attrs gen) ps) (map (particle_named ff x type) ps)).
        { induction ps; constructor; auto. apply particle_good. exact IH. }
        unfold complex_deser. rewrite merged_flattened. destruct (merged ff attributed min max c).
        * destruct (weights_at _ _ M) as (L & wds & MO). destruct c.
          -- destruct (map (member_of ff no_attrs gen) ps) as [|m0 ms0] eqn:Em.
             ++ apply map_eq_nil in Em. subst ps. eexists. eapply lift_count; [reflexivity| |apply empty_count]; reflexivity.
             ++ eexists. eapply lift_count; [reflexivity| |exact (seq_count x _ _ _ wds L MO true no_attrs false)]; reflexivity.
          -- eexists. eapply lift_count; [reflexivity| |exact (enum_count x _ _ _ wds L MO true false false)]; intros [i vals]; reflexivity.
          -- destruct (map (member_of ff no_attrs gen) ps) as [|m0 ms0] eqn:Em.
             ++ apply map_eq_nil in Em. subst ps. eexists. eapply lift_count; [reflexivity| |apply empty_count]; reflexivity.
             ++ eexists. eapply lift_count; [reflexivity| |exact (all_count x _ _ _ wds L MO true no_attrs)]; reflexivity.
        * destruct (has_content min max ps).
          -- destruct (content_good min max c (defaultable_group c ps) _ _ M) as (wd & K).
             eexists. eapply lift_count; [reflexivity| |exact (cdes_count x _ true no_attrs _ _ wd K eq_refl)]. reflexivity.
          -- eexists. eapply lift_count; [reflexivity| |apply empty_count]; reflexivity.
  Qed.
End Schema.

(** ** The driver *)
Section Driver.
  Context {V D : Type}.
  Variables (x : bytes) (w : V -> nat) (wd : D -> nat -> Prop) (des : deser V D) (blank : bytes -> option bool).
  Hypothesis C : conserves x true w wd des.

  (** An event that is handed back is no tag. *)
  Lemma unconsumed_tag ev e skip : back ev e -> unconsumed blank None false (into_event ev) = Ok skip ->
    skip = None /\ taken x ev e = begins x e.
  Proof.
    intros B. unfold taken. destruct (into_event ev) as [e'|] eqn:I.
    - pose proof (B _ I). subst e'. cbn. destruct e; try discriminate; try (intros [= <-]; auto; fail).
      destruct (blank _) as [[|]|]; try discriminate. intros [= <-]. auto.
    - intros [= <-]. auto.
  Qed.

  Lemma run_inside evs : forall d k h t rest, wd d k ->
    driver_run des blank (Driver h (Some d) None) evs = RDone t rest ->
    exists done, evs = done ++ rest /\ w t = k + tags_named x done.
  Proof.
    induction evs as [|e evs IH]; intros d k h t rest Wd; cbn [driver_run]; [discriminate|].
    unfold driver_step. cbn [v_helper v_skip v_des handle_skip].
    destruct (dh_event h e) as [h1|]; [|discriminate].
    destruct (de_next des d h1 e) as [[o h2]| |] eqn:E; try discriminate.
    destruct (c_next _ _ _ _ _ C _ _ _ _ _ _ Wd E) as (B & Ha & O & _). rewrite Ha.
    destruct (unconsumed blank None false (into_event (o_ev o))) as [skip| |] eqn:U; try discriminate.
    destruct (unconsumed_tag _ _ _ B U) as [-> Tk]. rewrite Tk in O.
    destruct (o_art o) as [|v|d']; cbn in O; [destruct O| |].
    - intros [= <- <-]. exists [e]. split; [reflexivity|]. cbn. unfold tags_named. cbn. lia.
    - intros H. destruct (IH _ _ _ _ _ O H) as (done & -> & Q). exists (e :: done). split; [reflexivity|].
      unfold tags_named in *. cbn [map total fold_right]. unfold total in Q. lia.
  Qed.

  Lemma run_root evs : forall h t rest,
    driver_run des blank (Driver h None None) evs = RDone t rest ->
    exists done, evs = done ++ rest /\ existsb is_tag done = true /\ w t = tags_named x (after_root done).
  Proof.
    induction evs as [|e evs IH]; intros h t rest; cbn [driver_run]; [discriminate|].
    unfold driver_step. cbn [v_helper v_skip v_des handle_skip].
    destruct (dh_event h e) as [h1|]; [|discriminate].
    destruct (de_init des h1 e) as [[o h2]| |] eqn:E; try discriminate.
    destruct (c_init _ _ _ _ _ C _ _ _ _ E) as (B & Ha & O). rewrite Ha.
    destruct (unconsumed blank None false (into_event (o_ev o))) as [skip| |] eqn:U; try discriminate.
    destruct (unconsumed_tag _ _ _ B U) as [-> _].
    destruct (o_art o) as [|v|d]; cbn in O.
    - destruct O as [Et _]. intros H. destruct (IH _ _ _ H) as (done & -> & X & Q). exists (e :: done).
      split; [reflexivity|]. cbn. rewrite Et. auto.
    - destruct O as (_ & Et & Wv & _). intros [= <- <-]. exists [e]. split; [reflexivity|]. cbn. rewrite Et. auto.
    - destruct O as (_ & Et & Wv & _). intros H. destruct (run_inside _ _ _ _ _ _ Wv H) as (done & -> & Q).
      exists (e :: done). split; [reflexivity|]. cbn. rewrite Et. auto.
  Qed.
End Driver.

Theorem documents_counted {T A} (ff : flat_flags) (no_attrs : A)
    (attrs_of : nat -> dhelper -> bytes -> list attr -> outcome kind (A * dhelper))
    (parse : nat -> dhelper -> bytes -> outcome kind (T * dhelper))
    (charref : bytes -> option bytes) (utf8_ok : bytes -> bool) (env : nat -> tdef) (blank : bytes -> option bool)
    n ty evs v rest :
  driver_run (type_deser ff no_attrs attrs_of parse charref utf8_ok env n ty) blank driver_new evs = RDone v rest ->
  exists done, evs = done ++ rest /\ existsb is_tag done = true /\
    forall x, elements_named ff x env n ty v = tags_named x (after_root done).
Proof.
  intros H.
  assert (R : forall x, exists done, evs = done ++ rest /\ existsb is_tag done = true /\
    elements_named ff x env n ty v = tags_named x (after_root done)).
  { intros x. destruct (type_good ff no_attrs attrs_of parse charref utf8_ok env x n ty) as [wd C].
    eapply run_root; [exact C|exact H]. }
  destruct (R ""%string) as (done & Q & X & _). exists done. split; [exact Q|]. split; [exact X|].
  intros x. destruct (R x) as (done' & Q' & _ & W). assert (done' = done) by (apply (app_inv_tail rest); congruence). subst. exact W.
Qed.

(** ** Names that do not occur in the schema *)
Lemma total_zero {X} (f : X -> nat) l : (forall y, f y = 0) -> total (map f l) = 0.
Proof. intros Z. unfold total. induction l; cbn; [reflexivity|]. rewrite Z, IHl. reflexivity. Qed.
Lemma total_zeroes l : Forall (fun n => n = 0) l -> total l = 0.
Proof. induction 1; cbn; [reflexivity|]. subst. exact IHForall. Qed.

Lemma group_zero {T A} (ws : list (val T A -> nat)) v : Forall (fun w => forall v, w v = 0) ws -> group_named ws v = 0.
Proof.
  intros Z. destruct v as [t|a t|a fields|i vals]; cbn; auto.
  - unfold fields_named. apply total_zeroes. apply Forall_map. apply Forall_forall. intros [w f] In.
    apply in_combine_l in In. rewrite Forall_forall in Z. cbn. apply total_zero. apply Z. exact In.
  - apply total_zero. intros v. destruct (nth_in_or_default i ws (fun _ => 0)) as [In|E].
    + rewrite Forall_forall in Z. apply Z. exact In.
    + rewrite E. reflexivity.
Qed.
Lemma inside_zero {T A} (w : val T A -> nat) v : (forall v, w v = 0) -> inside w v = 0.
Proof. intros Z. destruct v as [t|a t|a [|f [|]]|i vals]; cbn; auto. apply total_zero. exact Z. Qed.

Lemma particle_zero {T A} ff x (type : nat -> val T A -> nat) : (forall ty v, type ty v = 0) ->
  forall p, mentions x p = false -> forall v, particle_named ff x type p v = 0.
Proof.
  intros Z. induction p as [min max ns name ty|min max c ps IH] using particle_ind'; cbn [mentions particle_named].
  - intros -> v. apply Z.
  - intros N v.
    assert (F : Forall (fun w : val T A -> nat => forall v, w v = 0) (map (particle_named ff x type) ps)).
    { apply Forall_map. apply Forall_forall. intros p In. rewrite Forall_forall in IH. apply IH; auto.
      apply Bool.not_true_iff_false. intros X. apply Bool.not_true_iff_false in N. apply N. apply existsb_exists. eauto. }
    destruct (flat_for ff c); [apply group_zero; exact F|apply inside_zero; intros u; apply group_zero; exact F].
Qed.

Lemma unknown_zero {T A} ff x env : unknown_name x env -> forall n ty (v : val T A), elements_named ff x env n ty v = 0.
Proof.
  intros U. induction n as [|n IH]; intros ty v; cbn [elements_named]; [reflexivity|].
  specialize (U ty). destruct (env ty) as [| |attributed min max c ps]; auto.
  assert (F : Forall (fun w : val T A -> nat => forall v, w v = 0) (map (particle_named ff x (elements_named ff x env n)) ps)).
  { apply Forall_map. apply Forall_forall. intros p In. apply particle_zero; [exact IH|].
    apply Bool.not_true_iff_false. intros X. apply Bool.not_true_iff_false in U. apply U. apply existsb_exists. eauto. }
  destruct (merged ff attributed min max c); [apply group_zero; exact F|apply inside_zero; intros u; apply group_zero; exact F].
Qed.
