(** Proofs about the run of the renderer. *)
From Verif Require Import Base PathModel ExprModel RenderModel RenderSpec.
From Coq Require Import String NArith Permutation Sorted.
Local Open Scope list_scope.

Lemma ok_inj : forall E A B (a c : A) (b d : B), @Ok E _ (a, b) = Ok (c, d) -> a = c /\ b = d.
Proof. intros. split; congruence. Qed.

Section P.
  Variables (scfg dcfg cache ty item : Type).
  Variable new_cache : cache.
  Variable ser_global : scfg -> bool.
  Variable ser_code ser_ideal : list ident_path -> scfg -> ty -> list item.
  Variable scg : list ident_path -> scfg -> cache -> ty -> cache * list item.
  Variable de_code : list ident_path -> dcfg -> ty -> list item.
  Variable collect_code : list ident_path -> ty -> list item.
  Variable plain_code : nat -> list ident_path -> ty -> list item.

  Notation step := (rstep scfg dcfg cache ty item).
  Notation get := (vget scfg dcfg cache).
  Notation rtype := (render_type scfg dcfg cache ty item new_cache ser_global ser_code scg de_code collect_code plain_code).
  Notation rsteps := (render_steps scfg dcfg cache ty item new_cache ser_global ser_code scg de_code collect_code plain_code).
  Notation rtypes := (render_types scfg dcfg cache ty item new_cache ser_global ser_code scg de_code collect_code plain_code).
  Notation work := (own_work scfg dcfg cache ty item ser_global ser_code ser_ideal de_code collect_code plain_code).

  Lemma get_unset_other : forall k k' v, k <> k' -> get k (vunset scfg dcfg cache k' v) = get k v.
  Proof.
    intros k k' v N. induction v as [|[a x] v IH]; cbn; auto.
    destruct (vkey_eq_dec k' a) as [E|E]; cbn.
    - subst a. destruct (vkey_eq_dec k k'); [contradiction|exact IH].
    - destruct (vkey_eq_dec k a); auto.
  Qed.

  Lemma get_unset_same : forall k v, get k (vunset scfg dcfg cache k v) = None.
  Proof.
    intros k v. induction v as [|[a x] v IH]; cbn; auto.
    destruct (vkey_eq_dec k a) as [E|E]; cbn; auto.
    destruct (vkey_eq_dec k a); [contradiction|exact IH].
  Qed.

  Lemma get_set_same : forall k x v, get k (vset scfg dcfg cache k x v) = Some x.
  Proof. intros. cbn. destruct (vkey_eq_dec k k); congruence. Qed.

  Lemma get_set_other : forall k k' x v, k <> k' -> get k (vset scfg dcfg cache k' x v) = get k v.
  Proof.
    intros. unfold vset. cbn [vget]. destruct (vkey_eq_dec k k'); [contradiction|].
    apply get_unset_other. assumption.
  Qed.

  Definition coll_ok (sound : cache -> Prop) (v : vmap scfg dcfg cache) : Prop :=
    get KColl v = None \/ exists m, get KColl v = Some (VColl scfg dcfg cache m) /\ sound m.

  Definition clean (v : vmap scfg dcfg cache) : Prop := get KSer v = None /\ get KDe v = None.

  Section Run.
    Variable sound : cache -> Prop.
    Hypothesis sound_new : sound new_cache.
    Variable ss0 : list step.
    Hypothesis sound_step : forall ts c m t, In (SSer scfg dcfg cache ty item c) ss0 -> ser_global c = true -> sound m ->
      sound (fst (scg ts c m t)) /\ snd (scg ts c m t) = ser_ideal ts c t.

    Lemma step_ok : forall ts s v t, In s ss0 -> keeps_private _ _ _ _ _ s -> coll_ok sound v -> clean v ->
      (always_works _ _ _ _ _ s -> exists r, rtype ts s v t = Ok r) /\
      forall v' code, rtype ts s v t = Ok (v', code) ->
        coll_ok sound v' /\ clean v' /\ forall w, work ts s t = Some w -> code = w.
    Proof.
      intros ts s v t I KP CO [CS CD]. destruct s as [c|c| |n|own f]; cbn [render_type own_work].
      - unfold get_ser. rewrite get_set_same.
        destruct (ser_global c) eqn:G.
        + unfold get_coll. rewrite get_set_other by discriminate.
          destruct CO as [CO|(m & CO & SM)]; rewrite CO.
          * destruct (sound_step ts c new_cache t I G sound_new) as [S1 S2].
            destruct (scg ts c new_cache t) as [m' code] eqn:EC. cbn in S1, S2.
            split; [eauto|]. intros v' code' E. apply ok_inj in E. destruct E as [<- <-].
            split; [|split; [split|]].
            -- right. exists m'. split; [rewrite get_unset_other by discriminate; apply get_set_same|exact S1].
            -- apply get_unset_same.
            -- rewrite get_unset_other, get_set_other, get_set_other, get_set_other by discriminate. exact CD.
            -- congruence.
          * destruct (sound_step ts c m t I G SM) as [S1 S2].
            destruct (scg ts c m t) as [m' code] eqn:EC. cbn in S1, S2.
            split; [eauto|]. intros v' code' E. apply ok_inj in E. destruct E as [<- <-].
            split; [|split; [split|]].
            -- right. exists m'. split; [rewrite get_unset_other by discriminate; apply get_set_same|exact S1].
            -- apply get_unset_same.
            -- rewrite get_unset_other, get_set_other, get_set_other by discriminate. exact CD.
            -- congruence.
        + split; [eauto|]. intros v' code' E. apply ok_inj in E. destruct E as [<- <-].
          split; [|split; [split|]].
          * unfold coll_ok. rewrite get_unset_other, get_set_other by discriminate. exact CO.
          * apply get_unset_same.
          * rewrite get_unset_other, get_set_other by discriminate. exact CD.
          * congruence.
      - unfold get_de. rewrite get_set_same.
        split; [eauto|]. intros v' code' E. apply ok_inj in E. destruct E as [<- <-].
        split; [|split; [split|]].
        + unfold coll_ok. rewrite get_unset_other, get_set_other by discriminate. exact CO.
        + rewrite get_unset_other, get_set_other by discriminate. exact CS.
        + apply get_unset_same.
        + congruence.
      - split; [eauto|]. intros v' code' E. inversion E; subst. repeat split; auto; congruence.
      - split; [eauto|]. intros v' code' E. inversion E; subst. repeat split; auto; congruence.
      - split.
        + intros W. destruct (W ts v t) as (v' & code & E). eauto.
        + intros v' code E. cbn in KP. pose proof (KP ts v t v' code E) as K.
          split; [|split; [split|discriminate]].
          * unfold coll_ok. rewrite (K KColl) by (unfold private; auto). exact CO.
          * rewrite (K KSer) by (unfold private; auto). exact CS.
          * rewrite (K KDe) by (unfold private; auto). exact CD.
    Qed.

    Lemma steps_ok : forall ts ss i v t, incl ss ss0 -> Forall (keeps_private _ _ _ _ _) ss -> coll_ok sound v -> clean v ->
      (Forall (always_works _ _ _ _ _) ss -> exists r, rsteps ts i ss v t = Ok r) /\
      forall v' out, rsteps ts i ss v t = Ok (v', out) ->
        coll_ok sound v' /\ clean v' /\
        map fst out = map (fun k => (k, t)) (seq i (List.length ss)) /\
        forall k t' code, In (k, t', code) out -> i <= k /\ t' = t /\
          forall s w, nth_error ss (k - i) = Some s -> work ts s t = Some w -> code = w.
    Proof.
      intros ts ss. induction ss as [|s ss IH]; intros i v t IN KP CO CL; cbn [render_steps].
      - split; [eauto|]. intros v' out E. inversion E; subst. cbn.
        split; [exact CO|]. split; [exact CL|]. split; [reflexivity|intros ? ? ? []].
      - inversion KP as [|? ? K1 K2]; subst.
        destruct (step_ok ts s v t (IN s (or_introl eq_refl)) K1 CO CL) as [W R].
        assert (IN' : incl ss ss0) by (intros x X; apply IN; right; exact X).
        split.
        + intros AW. inversion AW as [|? ? A1 A2]; subst. destruct (W A1) as [[v1 code] E]. rewrite E.
          destruct (R _ _ E) as (CO1 & CL1 & _).
          destruct (proj1 (IH (S i) v1 t IN' K2 CO1 CL1) A2) as [[v2 out] E2]. rewrite E2. eauto.
        + intros v' out E. destruct (rtype ts s v t) as [[v1 code]| |] eqn:E1; try discriminate.
          destruct (R _ _ eq_refl) as (CO1 & CL1 & WK).
          destruct (rsteps ts (S i) ss v1 t) as [[v2 out2]| |] eqn:E2; try discriminate.
          inversion E; subst; clear E.
          destruct (proj2 (IH (S i) v1 t IN' K2 CO1 CL1) _ _ E2) as (CO2 & CL2 & M & C).
          split; [exact CO2|]. split; [exact CL2|]. split; [cbn; rewrite M; reflexivity|].
          intros k t' code' H. split; [|split].
          * destruct H as [H|H]; [inversion H; lia|]. apply C in H. lia.
          * destruct H as [H|H]; [inversion H; auto|]. apply C in H. tauto.
          * intros s' w N X. destruct H as [H|H].
            -- inversion H; subst. rewrite Nat.sub_diag in N. cbn in N. inversion N; subst. auto.
            -- destruct (C _ _ _ H) as (L & ET & Y). replace (k - i) with (S (k - S i)) in N by lia.
               cbn in N. eauto.
    Qed.

    Lemma types_ok : forall ts l v, Forall (keeps_private _ _ _ _ _) ss0 -> coll_ok sound v -> clean v ->
      (Forall (always_works _ _ _ _ _) ss0 -> exists r, rtypes ts ss0 v l = Ok r) /\
      forall out, rtypes ts ss0 v l = Ok out ->
        map fst out = turns _ _ _ _ _ ss0 l /\
        forall k t code, In (k, t, code) out -> 
          forall s w, nth_error ss0 k = Some s -> work ts s t = Some w -> code = w.
    Proof.
      intros ts l. induction l as [|t l IH]; intros v KP CO CL; cbn [render_types].
      - split; [eauto|]. intros out E. inversion E; subst. split; [reflexivity|intros ? ? ? []].
      - destruct (steps_ok ts ss0 0 v t (incl_refl _) KP CO CL) as [W R]. split.
        + intros AW. destruct (W AW) as [[v1 o1] E1]. rewrite E1.
          destruct (R _ _ E1) as (CO1 & CL1 & _).
          destruct (proj1 (IH v1 KP CO1 CL1) AW) as [o2 E2]. rewrite E2. eauto.
        + intros out E. destruct (rsteps ts 0 ss0 v t) as [[v1 o1]| |] eqn:E1; try discriminate.
          destruct (R _ _ eq_refl) as (CO1 & CL1 & M1 & C1).
          destruct (rtypes ts ss0 v1 l) as [o2| |] eqn:E2; try discriminate.
          inversion E; subst; clear E.
          destruct (proj2 (IH v1 KP CO1 CL1) _ E2) as (M2 & C2).
          split.
          * rewrite map_app, M1, M2. reflexivity.
          * intros k t' code H s w N X. apply in_app_or in H. destruct H as [H|H]; [|eauto].
            destruct (C1 _ _ _ H) as (_ & -> & Y). rewrite Nat.sub_0_r in Y. eauto.
    Qed.
  End Run.

  Lemma run_ok : forall xt derive d ss l,
    memory_faithful scfg cache ty item ser_ideal new_cache scg \/
      (forall c, In (SSer scfg dcfg cache ty item c) ss -> ser_global c = false) ->
    Forall (keeps_private _ _ _ _ _) ss ->
    let ts := all_traits scfg dcfg cache ty item xt derive d ss in
    (Forall (always_works _ _ _ _ _) ss -> exists r, rtypes ts ss [] l = Ok r) /\
    forall out, rtypes ts ss [] l = Ok out ->
      map fst out = turns _ _ _ _ _ ss l /\
      forall k t code, In (k, t, code) out ->
        forall s w, nth_error ss k = Some s -> work ts s t = Some w -> code = w.
  Proof.
    intros xt derive d ss l H KP ts.
    assert (C0 : forall P, coll_ok P []) by (intro; left; reflexivity).
    assert (L0 : clean []) by (split; reflexivity).
    destruct H as [(sound & SN & SO)|NG].
    - apply (types_ok sound SN ss); auto.
    - apply (types_ok (fun _ => True) I ss); auto.
      intros ts' c m t I1 G. rewrite (NG c I1) in G. discriminate.
  Qed.

End P.

(** The traits of dynamic types. *)
Section Traits.
  Variables (scfg dcfg cache ty item : Type).

  Lemma add_trait_in : forall t ts x, In x (add_trait t ts) <-> In x ts \/ x = t.
  Proof.
    intros. unfold add_trait. destruct (in_dec path_eq_dec t ts) as [I|N].
    - split; [auto|intros [H|H]; subst; auto].
    - rewrite in_app_iff. cbn. intuition congruence.
  Qed.

  Lemma add_trait_nodup : forall t ts, NoDup ts -> NoDup (add_trait t ts).
  Proof.
    intros t ts N. unfold add_trait. destruct (in_dec path_eq_dec t ts) as [I|NI]; auto.
    apply (NoDup_Add (a := t) (l := ts)).
    - rewrite <- (app_nil_r ts) at 1. apply Add_app.
    - auto.
  Qed.

  Lemma init_in : forall xt ss ts x,
    In x (fold_left (fun ts s => initialize scfg dcfg cache ty item xt s ts) ss ts) <->
    In x ts \/ exists s, In s ss /\ needed xt s x.
  Proof.
    intros xt ss. induction ss as [|s ss IH]; intros ts x; cbn [fold_left].
    - split; [auto|intros [H|(s & [] & _)]; auto].
    - rewrite IH. assert (E : In x (initialize scfg dcfg cache ty item xt s ts) <-> In x ts \/ needed xt s x).
      { destruct s; cbn [initialize needed]; rewrite ?add_trait_in, ?in_app_iff; unfold boxed_serializer, collect_namespaces, path_from_parts, with_path, path_from_ident; cbn [ip_path ip_ident ip_absolute]; tauto. }
      rewrite E. split.
      + intros [[H|H]|(s' & I1 & H)]; auto; right; [exists s|exists s']; cbn; auto.
      + intros [H|(s' & [I1|I1] & H)]; subst; auto. right. eauto.
  Qed.

  Lemma init_starts : forall xt ss ts,
    starts_as ts (fold_left (fun ts s => initialize scfg dcfg cache ty item xt s ts) ss ts).
  Proof.
    intros xt ss. induction ss as [|s ss IH]; intros ts; cbn [fold_left].
    - exists []. symmetry. apply app_nil_r.
    - destruct (IH (initialize scfg dcfg cache ty item xt s ts)) as [b E].
      assert (A : starts_as ts (initialize scfg dcfg cache ty item xt s ts)).
      { destruct s; cbn [initialize]; unfold add_trait;
          repeat match goal with |- context [in_dec ?d ?a ?l] => destruct (in_dec d a l) end;
          try (exists []; symmetry; apply app_nil_r); try (eexists; reflexivity). }
      destruct A as [a A]. exists (a ++ b). rewrite E, A, app_assoc. reflexivity.
  Qed.

  Lemma init_nodup : forall xt ss ts, (forall s own f, In s ss -> s = SOwn scfg dcfg cache ty item own f -> own = []) ->
    NoDup ts -> NoDup (fold_left (fun ts s => initialize scfg dcfg cache ty item xt s ts) ss ts).
  Proof.
    intros xt ss. induction ss as [|s ss IH]; intros ts O N; cbn [fold_left]; auto.
    apply IH; [intros; eapply O; [right|]; eauto|].
    destruct s; cbn [initialize]; auto using add_trait_nodup.
    rewrite (O (SOwn _ _ _ _ _ traits render) traits render) by (cbn; auto). rewrite app_nil_r. exact N.
  Qed.
End Traits.

(** Derived traits. *)
Lemma parsed_some : forall p, parsed p -> exists m, ip_path p = Some m.
Proof.
  intros p (ok & s & E). unfold path_parse in E.
  destruct (parse_parts ok (split_colons [] s) None [] false) as [[[[i|] m] a]| |]; inversion E; subst. cbn. eauto.
Qed.

Lemma tail_inj : forall m m' i i',
  flat_map (fun x => [TId x; TSep]) m ++ [TId i] = flat_map (fun x => [TId x; TSep]) m' ++ [TId i'] -> m = m' /\ i = i'.
Proof.
  induction m as [|a m IH]; intros [|b m'] i i' E; cbn in E; inversion E; auto.
  match goal with H : _ ++ _ = _ ++ _ |- _ => apply IH in H; destruct H; subst; auto end.
Qed.

Lemma tokens_inj : forall p q, parsed p -> parsed q -> path_tokens p = path_tokens q -> p = q.
Proof.
  intros p q P Q E. destruct (parsed_some p P) as [m M]. destruct (parsed_some q Q) as [m' M'].
  destruct p as [pp pi pa], q as [qp qi qa]. cbn in M, M'. subst.
  unfold path_tokens in E. cbn [ip_absolute ip_path ip_ident] in E.
  assert (H : forall m i, exists x r, flat_map (fun x => [TId x; TSep]) m ++ [TId i] = TId x :: r).
  { intros [|? ?] ?; cbn; eauto. }
  destruct (H m pi) as (x & r & X). destruct (H m' qi) as (y & r' & Y).
  destruct pa, qa; cbn [app] in E.
  - inversion E as [E1]. apply tail_inj in E1. destruct E1; subst; auto.
  - rewrite Y in E. discriminate.
  - rewrite X in E. discriminate.
  - apply tail_inj in E. destruct E; subst; auto.
Qed.

Lemma map_nodup : forall l, Forall parsed l -> NoDup l -> NoDup (map path_tokens l).
Proof.
  induction l as [|p l IH]; intros F N; cbn; [constructor|].
  inversion F; inversion N; subst. constructor; auto.
  rewrite in_map_iff. intros (q & E & I1).
  match goal with H : ~ In p l |- _ => apply H end.
  rewrite <- (tokens_inj q p); auto. rewrite Forall_forall in *. auto.
Qed.

Lemma derive_once : forall derive extra c, Forall parsed derive -> Forall parsed extra ->
  (match c with DeriveDefault => True | DeriveExtend l | DeriveOverwrite l => Forall parsed l end) ->
  NoDup (map path_tokens (get_derive derive extra c)).
Proof.
  intros derive extra c D X C. apply map_nodup; [|apply NoDup_nodup].
  unfold get_derive. apply Forall_forall. intros p I1. apply nodup_In in I1.
  destruct c; repeat (apply in_app_or in I1; destruct I1 as [I1|I1]); rewrite ?Forall_forall in *; auto.
Qed.

(** The order of the derived traits. *)
Definition lawful {A} (cmp : A -> A -> comparison) : Prop :=
  (forall a b, cmp a b = Eq <-> a = b) /\ (forall a b, cmp b a = CompOpp (cmp a b)) /\
  (forall a b c, cmp a b = Lt -> cmp b c = Lt -> cmp a c = Lt).

Lemma list_lawful : forall A (cmp : A -> A -> comparison), lawful cmp -> lawful (list_cmp cmp).
Proof.
  intros A cmp (E & O & T). split; [|split].
  - induction a as [|x a IH]; intros [|y b]; cbn; try (split; congruence).
    destruct (cmp x y) eqn:C.
    + apply E in C. subst. rewrite IH. split; congruence.
    + split; [discriminate|]. intro H. inversion H; subst. rewrite (proj2 (E y y) eq_refl) in C. discriminate.
    + split; [discriminate|]. intro H. inversion H; subst. rewrite (proj2 (E y y) eq_refl) in C. discriminate.
  - induction a as [|x a IH]; intros [|y b]; cbn; auto.
    rewrite (O x y). destruct (cmp x y); cbn; auto.
  - induction a as [|x a IH]; intros [|y b] [|z c]; cbn; try congruence.
    destruct (cmp x y) eqn:C1, (cmp y z) eqn:C2; try discriminate; intros H1 H2.
    + apply E in C1. apply E in C2. subst. rewrite (proj2 (E z z) eq_refl). eauto.
    + apply E in C1. subst. rewrite C2. reflexivity.
    + apply E in C2. subst. rewrite C1. reflexivity.
    + rewrite (T _ _ _ C1 C2). reflexivity.
Qed.

Lemma N_lawful : lawful N.compare.
Proof.
  split; [exact N.compare_eq_iff|]. split; [intros; apply N.compare_antisym|].
  intros a b c. rewrite !N.compare_lt_iff. apply N.lt_trans.
Qed.

Lemma str_lawful : lawful str_cmp.
Proof. exact (list_lawful _ _ N_lawful). Qed.

Definition path_key (p : ident_path) : list (list (list N)) :=
  [match ip_path p with None => [] | Some m => [] :: m end; [ip_ident p]; if ip_absolute p then [[]] else []].

Lemma lex_eq : forall (A : Type) (cmp : A -> A -> comparison) a b, lawful cmp -> cmp a a = Eq /\ (a = b -> cmp a b = Eq).
Proof. intros A cmp a b (E & _). split; [|intros ->]; apply E; reflexivity. Qed.

Lemma path_cmp_key : forall p q, path_cmp p q = list_cmp (list_cmp str_cmp) (path_key p) (path_key q).
Proof.
  intros [[m|] i a] [[n|] j b]; unfold path_cmp, path_key; cbn [ip_path ip_ident ip_absolute list_cmp].
  - change (str_cmp [] []) with Eq. cbv iota. destruct (list_cmp str_cmp m n); auto.
    destruct (str_cmp i j); auto. destruct a, b; reflexivity.
  - reflexivity.
  - reflexivity.
  - destruct (str_cmp i j); auto. destruct a, b; reflexivity.
Qed.

Lemma path_key_inj : forall p q, path_key p = path_key q -> p = q.
Proof.
  intros [[m|] i a] [[n|] j b] E; unfold path_key in E; cbn [ip_path ip_ident ip_absolute] in E;
    inversion E; subst; destruct a, b; congruence.
Qed.

Lemma path_lawful : lawful path_cmp.
Proof.
  destruct (list_lawful _ _ (list_lawful _ _ str_lawful)) as (E & O & T).
  split; [|split]; intros.
  - rewrite path_cmp_key, E. split; [apply path_key_inj|intros ->; reflexivity].
  - rewrite !path_cmp_key. apply O.
  - rewrite !path_cmp_key in *. eapply T; eauto.
Qed.

Lemma insert_perm : forall p l, Permutation (p :: l) (insert_path p l).
Proof.
  intros p l. induction l as [|q l IH]; cbn [insert_path]; auto.
  destruct (path_cmp p q); auto.
  eapply perm_trans; [apply perm_swap|]. auto.
Qed.

Lemma sort_perm : forall l, Permutation l (sort_paths l).
Proof.
  induction l as [|p l IH]; cbn [sort_paths fold_right]; auto.
  eapply perm_trans; [apply perm_skip; exact IH|]. apply insert_perm.
Qed.

Definition before (p q : ident_path) : Prop := path_cmp p q = Lt.

Lemma insert_sorted : forall p l, ~ In p l -> StronglySorted before l -> StronglySorted before (insert_path p l).
Proof.
  destruct path_lawful as (E & O & T).
  intros p l. induction l as [|q l IH]; intros N Q; cbn [insert_path].
  - repeat constructor.
  - inversion Q as [|? ? Q1 Q2]; subst. destruct (path_cmp p q) eqn:C.
    + apply E in C. subst. destruct N. left; reflexivity.
    + constructor; auto. constructor; auto. eapply Forall_impl; [|exact Q2].
      intros r R. unfold before in *. eapply T; eauto.
    + constructor.
      * apply IH; auto. intro X. apply N. right; exact X.
      * apply Forall_forall. intros r R.
        apply (Permutation_in r (Permutation_sym (insert_perm p l))) in R.
        destruct R as [<-|R].
        -- unfold before. rewrite O, C. reflexivity.
        -- rewrite Forall_forall in Q2. auto.
Qed.

Lemma sort_sorted : forall l, NoDup l -> StronglySorted before (sort_paths l).
Proof.
  induction l as [|p l IH]; intros N; cbn [sort_paths fold_right]; [constructor|].
  inversion N; subst. apply insert_sorted; auto.
  intro X. match goal with H : ~ In p l |- _ => apply H end.
  eapply Permutation_in; [apply Permutation_sym, sort_perm|exact X].
Qed.

Lemma sorted_unique : forall a b, StronglySorted before a -> StronglySorted before b -> Permutation a b -> a = b.
Proof.
  destruct path_lawful as (E & O & T).
  induction a as [|p a IH]; intros b A B P.
  - apply Permutation_nil in P. auto.
  - destruct b as [|q b]; [apply Permutation_sym, Permutation_nil in P; discriminate|].
    inversion A as [|? ? A1 A2]; inversion B as [|? ? B1 B2]; subst.
    assert (p = q).
    { assert (I1 : In p (q :: b)) by (eapply Permutation_in; [exact P|left; reflexivity]).
      assert (I2 : In q (p :: a)) by (eapply Permutation_in; [apply Permutation_sym; exact P|left; reflexivity]).
      destruct I1 as [I1|I1]; auto. destruct I2 as [I2|I2]; auto.
      rewrite Forall_forall in A2, B2. pose proof (A2 q I2) as X. pose proof (B2 p I1) as Y. unfold before in *.
      rewrite O, X in Y. discriminate. }
    subst. f_equal. apply IH; auto. eapply Permutation_cons_inv; exact P.
Qed.

Lemma sort_unique : forall a b, NoDup a -> Permutation a b -> sort_paths a = sort_paths b.
Proof.
  intros a b N P. apply sorted_unique; [apply sort_sorted; exact N| |].
  - apply sort_sorted. eapply Permutation_NoDup; eauto.
  - eapply perm_trans; [apply Permutation_sym, sort_perm|]. eapply perm_trans; [exact P|apply sort_perm].
Qed.
