(** Proofs about complex types with simple content. *)
From Verif Require Import SimpleModel SimpleSpec SimpleProofs SimpleContentModel SimpleContentSpec.

(** ** The facets of a content *)

Lemma step_content f m fx m' fx' : apply_facet f (m, fx) = Ok (m', fx') ->
  simple_content_builder (apply_facet f) (KType m) = Ok (KType m').
Proof.
  cbn [simple_content_builder content_variant]. intros H.
  destruct m, fx, f; cbn in H |- *; try discriminate; injection H as <- _; reflexivity.
Qed.
Lemma facets_content fs : forall m fx m' fx', apply_facets fs (m, fx) = Ok (m', fx') ->
  content_facets fs (KType m) = Ok (KType m').
Proof.
  induction fs as [|f fs IH]; intros m fx m' fx' H; cbn [apply_facets content_facets] in *.
  - injection H as <- _. reflexivity.
  - destruct (apply_facet f (m, fx)) as [[m1 fx1]| |] eqn:E; try discriminate.
    rewrite (step_content _ _ _ _ _ E). exact (IH _ _ _ _ H).
Qed.

Definition is_enum (m : smeta) : bool := match m with MEnum _ _ => true | _ => false end.
Lemma facets_not_enum fs : forall m fx m' fx', existsb is_enumeration fs = false -> is_enum m = false ->
  apply_facets fs (m, fx) = Ok (m', fx') -> is_enum m' = false.
Proof.
  induction fs as [|f fs IH]; intros m fx m' fx' HF HM H; cbn [apply_facets existsb] in *.
  - injection H as <- _. exact HM.
  - apply orb_false_iff in HF as [Hf HF].
    destruct (apply_facet f (m, fx)) as [[m1 fx1]| |] eqn:E; try discriminate.
    apply (IH _ _ _ _ HF) in H; [exact H|].
    destruct f; try discriminate Hf; destruct m; cbn in E; try discriminate E; try discriminate HM; injection E as <- _; reflexivity.
Qed.
Lemma not_enumerated d : forall m fx, enumerated d = false -> interpret d = Ok (m, fx) -> is_enum m = false.
Proof.
  induction d as [b l|i base IH fs|item IH|ms]; intros m fx HE H; cbn [interpret enumerated] in *.
  - injection H as <- _. reflexivity.
  - apply orb_false_iff in HE as [HF HE]. destruct (interpret base) as [[m0 fx0]| |] eqn:E; try discriminate.
    pose proof (IH _ _ HE eq_refl) as H0. destruct i; [exact (facets_not_enum _ _ _ _ _ HF H0 H)|].
    refine (facets_not_enum _ _ _ _ _ HF _ H). destruct m0; try exact H0; discriminate H0.
  - destruct (interpret item) as [[m0 fx0]| |]; try discriminate. injection H as <- _. reflexivity.
  - match type of H with match ?X with _ => _ end = _ => destruct X end; try discriminate. injection H as <- _. reflexivity.
Qed.
Lemma copy_not_enum m : is_enum m = false -> copy_base m = m.
Proof. destruct m; try reflexivity. discriminate. Qed.

(** ** Simple types in a restriction *)

Lemma all_members ms mm fx : interpret (SUnion ms) = Ok (mm, fx) -> exists l, interpret_all ms = Ok l /\ mm = MUnion no_constrains l.
Proof.
  cbn [interpret]. intros H.
  assert (HX : forall l, (fix all (l : list sdef) : outcome ierror (list smeta) :=
           match l with
           | [] => Ok []
           | d :: l' =>
               match interpret d with
               | Ok (m, _) => match all l' with Ok ms => Ok (m :: ms) | Err e => Err e | Panic => Panic end
               | Err e => Err e
               | Panic => Panic
               end
           end) l = interpret_all l).
  { induction l as [|d l IH]; [reflexivity|]. cbn [interpret_all]. rewrite IH. reflexivity. }
  rewrite HX in H. destruct (interpret_all ms) as [l| |]; try discriminate. injection H as <- _. exists l. auto.
Qed.

Lemma inline_self d : forall m fx k m0, self_contained d -> interpret d = Ok (m, fx) -> k <> KNone -> content_variant k = Some m0 ->
  (is_union d = true -> match m0 with MUnion _ _ => False | _ => True end) -> apply_inline d k = Ok (KType m).
Proof.
  induction d as [b l|i base IH fs|item IH|ms]; intros m fx k m0 HS HI HK HV HU.
  - destruct HS.
  - destruct i; [|destruct HS]. cbn [interpret apply_inline] in *. destruct (interpret base) as [[m1 fx1]| |] eqn:E; try discriminate.
    rewrite (IH m1 fx1 k m0 HS eq_refl HK HV HU). exact (facets_content _ _ _ _ _ HI).
  - cbn [interpret apply_inline] in *. destruct (interpret item) as [[m1 fx1]| |]; try discriminate. injection HI as <- _.
    unfold simple_content_builder. destruct k; [elim HK; reflexivity| | |discriminate HV]; injection HV as <-; [|reflexivity].
    cbn. destruct m; reflexivity.
  - apply all_members in HI as (l & E & ->). cbn [apply_inline]. rewrite E. specialize (HU eq_refl).
    unfold simple_content_builder. destruct k; [elim HK; reflexivity| | |discriminate HV]; injection HV as <-; [|reflexivity].
    cbn. destruct m; try reflexivity. destruct HU.
Qed.

(** ** The content of a type *)

Definition interprets (c : cdef) : Prop :=
  forall b d, derives b c -> content_type b = Some d -> exists m fx, interpret d = Ok (m, fx).

Lemma content_straight : forall c d m fx, straight c -> interprets c -> content_type c = Some d -> interpret d = Ok (m, fx) ->
  exists t, interpret_complex c = Ok t /\ k_mixed t = false /\ k_content t = KType m.
Proof.
  fix IH 1. intros c d m fx HS HP HC HI. destruct c as [a|a|[b|b] a|[b|b] inl fs a]; try discriminate HC.
  - cbn in HC. injection HC as ->. cbn. rewrite HI. eexists. split; [reflexivity|]. split; reflexivity.
  - destruct (IH b d m fx HS) as (t & E & M & K); [|exact HC|exact HI|].
    { intros b' d' Hb. apply HP. constructor. exact Hb. }
    cbn. rewrite E. eexists. split; [reflexivity|]. unfold copy_complex_base. rewrite M. split; [reflexivity|exact K].
  - assert (HPb : interprets b) by (intros b' d' Hb; apply HP; constructor; exact Hb).
    cbn [straight content_type] in HS, HC. destruct HS as [HS HX].
    destruct (content_type b) as [d0|] eqn:EB.
    + assert (HE : enumerated d0 = false) by (destruct inl; [apply HX|exact HX]).
      destruct (HPb b d0 (V_same _) EB) as (m0 & fx0 & E0).
      destruct (IH b d0 m0 fx0 HS HPb EB E0) as (t & E & M & K).
      pose proof (copy_not_enum _ (not_enumerated _ _ _ HE E0)) as HCP.
      cbn [interpret_complex base_complex]. rewrite E. unfold copy_complex_base. rewrite M. cbn [k_content k_mixed k_attrs].
      rewrite K. destruct inl as [d1|].
      * injection HC as <-. cbn [interpret] in HI. destruct (interpret d1) as [[m1 fx1]| |] eqn:E1; try discriminate.
        assert (HA : apply_inline d1 (KType m0) = Ok (KType m1)).
        { destruct HX as (_ & [(fs' & ->)|[HSC HU]]).
          - cbn [interpret apply_inline] in E1 |- *. rewrite E0, HCP in E1. rewrite E0. exact (facets_content _ _ _ _ _ E1).
          - apply (inline_self d1 m1 fx1 (KType m0) m0); auto; [discriminate|]. rewrite HU. discriminate. }
        rewrite HA, (facets_content _ _ _ _ _ HI). eexists. split; [reflexivity|]. split; reflexivity.
      * injection HC as <-. cbn [interpret] in HI. rewrite E0, HCP in HI. rewrite (facets_content _ _ _ _ _ HI).
        eexists. split; [reflexivity|]. split; reflexivity.
    + destruct inl as [d1|]; [|discriminate HC]. injection HC as <-. destruct HX as [(a' & ->) HSC].
      cbn [interpret] in HI. destruct (interpret d1) as [[m1 fx1]| |] eqn:E1; try discriminate.
      cbn [interpret_complex base_complex copy_complex_base k_mixed k_content k_attrs].
      rewrite (inline_self d1 m1 fx1 KMixed (MBuildIn string_builtin)); auto; [|discriminate].
      rewrite (facets_content _ _ _ _ _ HI). eexists. split; [reflexivity|]. split; reflexivity.
Qed.

(** ** The attributes *)

Lemma attrs_no_mixed : forall c t, no_mixed c -> interpret_complex c = Ok t -> k_mixed t = false /\ k_attrs t = attributes c.
Proof.
  fix IH 1. intros c t HN H. destruct c as [a|a|[b|b] a|[b|b] inl fs a]; cbn [interpret_complex base_complex attributes no_mixed] in *.
  - destruct HN.
  - injection H as <-. split; reflexivity.
  - destruct (interpret b) as [[m fx]| |]; try discriminate. injection H as <-. split; reflexivity.
  - destruct (interpret_complex b) as [t0| |] eqn:E; try discriminate. destruct (IH b t0 HN E) as [M A].
    injection H as <-. unfold copy_complex_base. rewrite M. cbn. rewrite A. split; reflexivity.
  - destruct (interpret b) as [[m fx]| |]; try discriminate. cbn [k_content k_mixed k_attrs] in H.
    destruct (match inl with Some d => _ | None => _ end) as [k| |]; try discriminate.
    destruct (content_facets fs k); try discriminate. injection H as <-. split; reflexivity.
  - destruct (interpret_complex b) as [t0| |] eqn:E; try discriminate. destruct (IH b t0 HN E) as [M A].
    unfold copy_complex_base in H. rewrite M in H. cbn [k_content k_mixed k_attrs] in H.
    destruct (match inl with Some d => _ | None => _ end) as [k| |]; try discriminate.
    destruct (content_facets fs k); try discriminate. injection H as <-. cbn. rewrite A. split; reflexivity.
Qed.

(** ** No panic *)

Definition is_builtin (m : smeta) : bool := match m with MBuildIn _ => true | _ => false end.
Lemma facet_not_builtin f m fx m' fx' : is_builtin m = false -> apply_facet f (m, fx) = Ok (m', fx') -> is_builtin m' = false.
Proof.
  intros H E. destruct f, m, fx; cbn in E; try discriminate; injection E as <- _; reflexivity.
Qed.
Lemma facets_not_builtin fs : forall m fx m' fx', is_builtin m = false -> apply_facets fs (m, fx) = Ok (m', fx') -> is_builtin m' = false.
Proof.
  induction fs as [|f fs IH]; intros m fx m' fx' H E; cbn [apply_facets] in E.
  - injection E as <- _. exact H.
  - destruct (apply_facet f (m, fx)) as [[m1 fx1]| |] eqn:E1; try discriminate.
    exact (IH _ _ _ _ (facet_not_builtin _ _ _ _ _ H E1) E).
Qed.
Lemma interpret_not_builtin d : forall m fx, interpret d = Ok (m, fx) -> is_builtin m = false.
Proof.
  induction d as [b l|i base IH fs|item IH|ms]; intros m fx H; cbn [interpret] in *.
  - injection H as <- _. reflexivity.
  - destruct (interpret base) as [[m0 fx0]| |] eqn:E; try discriminate. pose proof (IH _ _ eq_refl) as H0.
    destruct i; [exact (facets_not_builtin _ _ _ _ _ H0 H)|]. refine (facets_not_builtin _ _ _ _ _ _ H). destruct m0; try exact H0; reflexivity.
  - destruct (interpret item) as [[m0 fx0]| |]; try discriminate. injection H as <- _. reflexivity.
  - match type of H with match ?X with _ => _ end = _ => destruct X end; try discriminate. injection H as <- _. reflexivity.
Qed.

Definition sound (k : content) : Prop := match k with KType m => is_builtin m = false | KElements => True | _ => False end.
Definition sound_result (r : outcome cerror content) : Prop := match r with Ok k => sound k | Err _ => True | Panic => False end.

Lemma facets_sound fs : forall k, sound k -> sound_result (content_facets fs k).
Proof.
  induction fs as [|f fs IH]; intros k H; cbn [content_facets]; [exact H|].
  destruct k as [|m| |]; [destruct H| |destruct H|exact I]. cbn [simple_content_builder content_variant sound] in *.
  destruct (apply_facet f (m, false)) as [[m1 fx1]| |] eqn:E; [|exact I|].
  - apply IH. cbn. refine (facet_not_builtin _ _ _ _ _ _ E). assumption.
  - destruct f, m; cbn in *; discriminate.
Qed.
Lemma all_no_panic ms : interpret (SUnion ms) <> Panic -> interpret_all ms <> Panic.
Proof.
  cbn [interpret]. intros H E. apply H.
  assert (HX : forall l, (fix all (l : list sdef) : outcome ierror (list smeta) :=
           match l with
           | [] => Ok []
           | d :: l' =>
               match interpret d with
               | Ok (m, _) => match all l' with Ok ms => Ok (m :: ms) | Err e => Err e | Panic => Panic end
               | Err e => Err e
               | Panic => Panic
               end
           end) l = interpret_all l).
  { induction l as [|d l IH]; [reflexivity|]. cbn [interpret_all]. rewrite IH. reflexivity. }
  rewrite HX, E. reflexivity.
Qed.
Lemma inline_sound d : forall k, interpret d <> Panic -> sound k -> sound_result (apply_inline d k).
Proof.
  induction d as [b l|i base IH fs|item IH|ms]; intros k HI HK.
  - exact HK.
  - cbn [interpret] in HI. destruct i; cbn [apply_inline].
    + assert (HB : interpret base <> Panic) by (destruct (interpret base); [discriminate|discriminate|elim HI; reflexivity]).
      specialize (IH k HB HK). destruct (apply_inline base k) as [k'| |]; [|exact I|destruct IH]. apply facets_sound, IH.
    + destruct (interpret base) as [[m fx]| |] eqn:E; [|exact I|elim HI; reflexivity]. apply facets_sound.
      destruct k; [destruct HK|exact HK|destruct HK|exact I].
  - cbn [interpret apply_inline] in *. destruct (interpret item) as [[m fx]| |]; [|exact I|elim HI; reflexivity].
    destruct k as [|m0| |]; [destruct HK| |destruct HK|exact I]. cbn. destruct m0; reflexivity.
  - apply all_no_panic in HI. cbn [apply_inline]. destruct (interpret_all ms) as [l| |]; [|exact I|elim HI; reflexivity].
    destruct k as [|m0| |]; [destruct HK| |destruct HK|exact I]. cbn. destruct m0; reflexivity.
Qed.

Lemma complex_sound : forall c, no_mixed c -> (forall d, mentions c d -> interpret d <> Panic) ->
  match interpret_complex c with Ok t => k_mixed t = false /\ sound (k_content t) | Err _ => True | Panic => False end.
Proof.
  assert (HR : forall t inl fs a, (forall d, inl = Some d -> interpret d <> Panic) -> k_mixed t = false -> sound (k_content t) ->
    match (match (match inl with Some d => apply_inline d (k_content t) | None => Ok (k_content t) end) with
          | Ok k =>
              match content_facets fs k with
              | Ok k' => Ok (CMeta (k_mixed t) k' (k_attrs t ++ a))
              | Err e => Err e
              | Panic => Panic
              end
          | Err e => Err e
          | Panic => Panic
          end)
    with Ok t => k_mixed t = false /\ sound (k_content t) | Err _ => True | Panic => False end).
  { intros t inl fs a HI HM HK.
    assert (HX : sound_result (match inl with Some d => apply_inline d (k_content t) | None => Ok (k_content t) end)).
    { destruct inl as [d|]; [apply inline_sound; auto|exact HK]. }
    destruct (match inl with Some d => _ | None => _ end) as [k| |]; [|exact I|destruct HX].
    pose proof (facets_sound fs k HX) as HF. destruct (content_facets fs k); [|exact I|destruct HF]. split; [exact HM|exact HF]. }
  fix IH 1. intros c HN HP. destruct c as [a|a|[b|b] a|[b|b] inl fs a]; cbn [interpret_complex base_complex no_mixed mentions] in *.
  - destruct HN.
  - split; [reflexivity|exact I].
  - specialize (HP b eq_refl). destruct (interpret b) as [[m fx]| |] eqn:E; [|exact I|elim HP; reflexivity].
    split; [reflexivity|]. exact (interpret_not_builtin _ _ _ E).
  - specialize (IH b HN HP). destruct (interpret_complex b) as [t| |]; [|exact I|destruct IH]. destruct IH as [M K].
    unfold copy_complex_base. rewrite M. split; [reflexivity|exact K].
  - pose proof (HP b (or_introl eq_refl)) as HB. destruct (interpret b) as [[m fx]| |] eqn:E; [|exact I|elim HB; reflexivity].
    apply HR; [|reflexivity|exact (interpret_not_builtin _ _ _ E)]. intros d ->. apply HP. right. reflexivity.
  - specialize (IH b HN (fun d H => HP d (or_introl H))). destruct (interpret_complex b) as [t| |]; [|exact I|destruct IH].
    destruct IH as [M K]. unfold copy_complex_base. rewrite M. apply HR; [|reflexivity|exact K].
    intros d ->. apply HP. right. reflexivity.
Qed.
