From Coq Require Import NArith Lia.
From Verif Require Import MetaModel MetaSpec OccursSpec FlatModel FlatSpec FlatProofs ContentModel ContentSpec.

(** ** Lists *)

Lemma lookup_snoc {V} i (l : list (tident * V)) j v :
  lookup i (l ++ [(j, v)]) = match lookup i l with Some x => Some x | None => if tident_eq_dec i j then Some v else None end.
Proof. induction l as [|[k x] l IH]; cbn; [reflexivity|]. destruct (tident_eq_dec i k); [reflexivity|exact IH]. Qed.

Lemma in_order_iff {A A' B} (P : A -> list B -> Prop) (Q : A' -> list B -> Prop) ps qs :
  Forall2 (fun p q => forall w, P p w <-> Q q w) ps qs -> forall w, in_order P ps w <-> in_order Q qs w.
Proof.
  induction 1 as [|p q ps qs H HF IH]; intros w.
  - split; intros I; inversion I; subst; constructor.
  - split; intros I; inversion I; subst; constructor; try (now apply H); now apply IH.
Qed.

Lemma any_order_iff {A A' B} (P : A -> list B -> Prop) (Q : A' -> list B -> Prop) ps qs :
  Forall2 (fun p q => forall w, P p w <-> Q q w) ps qs -> forall w, any_order P ps w <-> any_order Q qs w.
Proof.
  induction 1 as [|p q ps qs H HF IH]; intros w.
  - split; intros I; inversion I; subst; constructor.
  - split; intros I; inversion I; subst; econstructor; eauto; try (now apply H); now apply IH.
Qed.

Lemma forall2_in_l {A B} (R : A -> B -> Prop) l l' a : Forall2 R l l' -> In a l -> exists b, In b l' /\ R a b.
Proof. induction 1 as [|x y l l' H HF IH]; intros [].  - subst. exists y. split; [now left|exact H]. - destruct IH as (b & I & Rb); auto. exists b. split; [now right|exact Rb]. Qed.

Lemma forall2_in_r {A B} (R : A -> B -> Prop) l l' b : Forall2 R l l' -> In b l' -> exists a, In a l /\ R a b.
Proof. induction 1 as [|x y l l' H HF IH]; intros []. - subst. exists x. split; [now left|exact H]. - destruct IH as (a & I & Ra); auto. exists a. split; [now right|exact Ra]. Qed.

Lemma composed_iff {A A' B} (P : A -> list B -> Prop) (Q : A' -> list B -> Prop) c ps qs :
  Forall2 (fun p q => forall w, P p w <-> Q q w) ps qs -> forall w, composed P c ps w <-> composed Q c qs w.
Proof.
  intros F w. split; intros H; inversion H; subst.
  - constructor. now apply (in_order_iff P Q ps qs F).
  - destruct (forall2_in_l _ _ _ _ F H0) as (q & I & E). apply (co_choice _ _ q); [exact I|now apply E].
  - constructor. now apply (any_order_iff P Q ps qs F).
  - constructor. now apply (in_order_iff P Q ps qs F).
  - destruct (forall2_in_r _ _ _ _ F H0) as (q & I & E). apply (co_choice _ _ q); [exact I|now apply E].
  - constructor. now apply (any_order_iff P Q ps qs F).
Qed.

Lemma times_iff {A} (L L' : list A -> Prop) n w : (forall v, L v <-> L' v) -> times L n w <-> times L' n w.
Proof. intros H. split; apply times_impl; intros v; apply H. Qed.

(** ** Particles and the elements made of them *)

Section Shows.
  Variable groups : tident -> option (compositor * list particle).
  Variable old : tident -> Prop.

  (** [e] stands for [p]; the groups it uses are not old ones. *)
  Inductive shows (ts : types) : particle -> element_meta -> Prop :=
  | sh_element id t f mn mx nl e : el_ident e = id -> el_variant e = EVType t ModeElement -> el_min e = mn -> el_max e = mx ->
      shows ts (PElement id t f mn mx nl) e
  | sh_any id a mn mx e : el_ident e = id -> el_variant e = EVAny a -> el_min e = mn -> el_max e = mx ->
      shows ts (PAny id a mn mx) e
  | sh_group c mn mx ps e t : el_variant e = EVType t ModeGroup -> el_min e = mn -> el_max e = mx ->
      stands ts t c ps -> shows ts (PGroup c mn mx ps) e
  | sh_ref g c mn mx ps e t : groups g = Some (c, ps) -> el_variant e = EVType t ModeGroup -> el_min e = mn -> el_max e = mx ->
      stands ts t c ps -> shows ts (PGroupRef g mn mx) e
  with stands (ts : types) : tident -> compositor -> list particle -> Prop :=
  | st_group t c ps ty g : ~ old t -> lookup t ts = Some ty -> m_variant ty = compose c g -> all_shown ts ps (gr_elements g) ->
      stands ts t c ps
  with all_shown (ts : types) : list particle -> list element_meta -> Prop :=
  | as_nil : all_shown ts [] []
  | as_cons p ps e es : shows ts p e -> all_shown ts ps es -> all_shown ts (p :: ps) (e :: es).

  Scheme shows_min := Minimality for shows Sort Prop
    with stands_min := Minimality for stands Sort Prop
    with shown_min := Minimality for all_shown Sort Prop.
  Combined Scheme shows_mut from shows_min, stands_min, shown_min.

  Lemma shown_app ts ps es ps' es' : all_shown ts ps es -> all_shown ts ps' es' -> all_shown ts (ps ++ ps') (es ++ es').
  Proof. induction 1; intros H'; cbn; [exact H'|]. constructor; auto. Qed.

  Lemma accepts_composed ts t ty c g w : lookup t ts = Some ty -> m_variant ty = compose c g ->
    accepts ts t w <-> composed (part ts) c (gr_elements g) w.
  Proof.
    intros L V. split.
    - intros A. inversion A as [i ty' g' w' L' V' I| i ty' g' e w' L' V' I P| i ty' g' w' L' V' I]; subst;
        rewrite L in L'; injection L' as <-; rewrite V in V'; destruct c; cbn in V'; try discriminate V'; injection V' as <-.
      + now constructor.
      + now apply (co_choice _ _ e).
      + now constructor.
    - intros C. inversion C; subst; cbn in V.
      + now apply (acc_sequence ts t ty g).
      + now apply (acc_choice ts t ty g p).
      + now apply (acc_all ts t ty g).
  Qed.

  Lemma shown_meaning ts :
    (forall p e, shows ts p e -> forall w, says groups p w <-> part ts e w) /\
    (forall t c ps, stands ts t c ps -> forall w, composed (says groups) c ps w <-> accepts ts t w) /\
    (forall ps es, all_shown ts ps es -> Forall2 (fun p e => forall w, says groups p w <-> part ts e w) ps es).
  Proof.
    apply shows_mut.
    - intros id t f mn mx nl e I V Mn Mx w. assert (G : is_group e = None) by (unfold is_group; now rewrite V).
      assert (C : child_of e = (id, KType t)) by (unfold child_of; now rewrite I, V). split; intros H.
      + inversion H; subst. rewrite <- C. now apply part_child.
      + inversion H as [e' t' n w' G'|e' n G' W]; subst; [congruence|]. rewrite C. now constructor.
    - intros id a mn mx e I V Mn Mx w. assert (G : is_group e = None) by (unfold is_group; now rewrite V).
      assert (C : child_of e = (id, KAny)) by (unfold child_of; now rewrite I, V). split; intros H.
      + inversion H; subst. rewrite <- C. now apply part_child.
      + inversion H as [e' t' n w' G'|e' n G' W]; subst; [congruence|]. rewrite C. now constructor.
    - intros c mn mx ps e t V Mn Mx _ IH w. assert (G : is_group e = Some t) by (unfold is_group; now rewrite V). split; intros H.
      + inversion H as [| |c' mn' mx' ps' n w' W T|]; subst. apply (part_group ts e t n); auto. now apply (times_iff _ _ n w IH).
      + inversion H as [e' t' n w' G' W T|e' n G' W]; subst; [|congruence]. rewrite G in G'. injection G' as <-.
        apply (says_group groups c _ _ ps n); auto. now apply (times_iff _ _ n w IH).
    - intros g c mn mx ps e t Eg V Mn Mx _ IH w. assert (G : is_group e = Some t) by (unfold is_group; now rewrite V). split; intros H.
      + inversion H as [| | |g' c' mn' mx' ps' n w' Eg' W T]; subst. rewrite Eg in Eg'. injection Eg' as <- <-.
        apply (part_group ts e t n); auto. now apply (times_iff _ _ n w IH).
      + inversion H as [e' t' n w' G' W T|e' n G' W]; subst; [|congruence]. rewrite G in G'. injection G' as <-.
        apply (says_ref groups g c _ _ ps n); auto. now apply (times_iff _ _ n w IH).
    - intros t c ps ty g _ L V _ IH w. rewrite (accepts_composed ts t ty c g w L V). now apply composed_iff.
    - constructor.
    - intros p ps e es _ IH _ IHs. now constructor.
  Qed.

  (** More types, and changes of old ones, keep this. *)
  Definition keeps (ts ts' : types) : Prop := forall t ty, ~ old t -> lookup t ts = Some ty -> lookup t ts' = Some ty.

  Lemma shown_keeps ts ts' : keeps ts ts' ->
    (forall p e, shows ts p e -> shows ts' p e) /\ (forall t c ps, stands ts t c ps -> stands ts' t c ps) /\
    (forall ps es, all_shown ts ps es -> all_shown ts' ps es).
  Proof.
    intros K. apply shows_mut; intros.
    - now constructor.
    - now constructor.
    - now apply (sh_group ts' c mn mx ps e t).
    - now apply (sh_ref ts' g c mn mx ps e t).
    - apply (st_group ts' t c ps ty g); auto.
    - constructor.
    - now constructor.
  Qed.
End Shows.

(** ** The elements of a group *)

Definition renamed (e e' : element_meta) : Prop := exists d, e' = set_display d e.
Lemma renamed_refl e : renamed e e.
Proof. exists (el_display e). now destruct e. Qed.
Lemma renamed_trans a b c : renamed a b -> renamed b c -> renamed a c.
Proof. intros (d & ->) (d' & ->). exists d'. reflexivity. Qed.
Lemma all_renamed_refl es : Forall2 renamed es es.
Proof. induction es; constructor; auto using renamed_refl. Qed.
Lemma all_renamed_trans a : forall b c, Forall2 renamed a b -> Forall2 renamed b c -> Forall2 renamed a c.
Proof. induction a as [|x a IH]; intros b c H H'; inversion H; subst; inversion H'; subst; constructor; eauto using renamed_trans. Qed.

Lemma renamed_idents es es' : Forall2 renamed es es' -> map el_ident es' = map el_ident es.
Proof. induction 1 as [|e e' es es' (d & ->) HF IH]; cbn; [reflexivity|]. now rewrite IH. Qed.

Lemma part_renamed ts e e' w : renamed e e' -> part ts e w <-> part ts e' w.
Proof.
  intros (d & ->). split; intros H; inversion H; subst.
  - apply (part_group ts _ t n); auto.
  - apply (part_child ts (set_display d e) n); auto.
  - apply (part_group ts _ t n); auto.
  - apply (part_child ts e n); auto.
Qed.

Lemma renamed_parts ts es es' : Forall2 renamed es es' -> Forall2 (fun e e' => forall w, part ts e w <-> part ts e' w) es es'.
Proof. induction 1; constructor; auto. intros w. now apply part_renamed. Qed.

Definition is_real (e : element_meta) : bool := match el_variant e with EVType _ ModeElement => true | _ => false end.
Definition real_names (es : list element_meta) : list pident := map el_ident (filter is_real es).

Lemma real_app a b : real_names (a ++ b) = real_names a ++ real_names b.
Proof. unfold real_names. now rewrite filter_app, map_app. Qed.

Lemma real_renamed es es' : Forall2 renamed es es' -> real_names es' = real_names es.
Proof.
  unfold real_names. induction 1 as [|e e' es es' (d & ->) HF IH]; cbn; [reflexivity|].
  replace (is_real (set_display d e)) with (is_real e) by reflexivity. destruct (is_real e); cbn; now rewrite IH.
Qed.

Lemma forall2_mid {A} (R : A -> A -> Prop) l1 x x' l2 : (forall a, R a a) -> R x x' -> Forall2 R (l1 ++ x :: l2) (l1 ++ x' :: l2).
Proof.
  intros Rr Rx. induction l1 as [|a l1 IH]; cbn; constructor; auto. clear - Rr. induction l2; constructor; auto.
Qed.

Lemma find_none id es : find_element id es = None -> ~ In id (map el_ident es).
Proof.
  induction es as [|e es IH]; cbn; [auto|]. destruct (pident_eq_dec (el_ident e) id); [discriminate|].
  destruct (find_element id es); [discriminate|]. intros _ [|H]; [congruence|]. now apply IH.
Qed.

Lemma insert_adds id f es es' : (forall i, el_ident (f i) = i) -> insert_checked id f es = Ok es' ->
  exists es1 i, es' = es1 ++ [f i] /\ Forall2 renamed es es1 /\ ~ In i (map el_ident es) /\ pi_ns i = pi_ns id.
Proof.
  intros Hf. unfold insert_checked. destruct (find_element id es) as [[[l1 x] l2]|] eqn:F.
  - destruct (FlatProofs.find_some _ _ _ _ _ F) as (-> & Ix). set (x' := match el_display x with None => _ | Some _ => _ end).
    assert (Rx : renamed x x').
    { subst x'. destruct (el_display x) eqn:D; [apply renamed_refl|]. now eexists. }
    clearbody x'. assert (R : Forall2 renamed (l1 ++ x :: l2) (l1 ++ x' :: l2)) by (apply forall2_mid; auto using renamed_refl).
    assert (FN : forall k next i, free_name k next id (l1 ++ x' :: l2) = Some i -> ~ In i (map el_ident (l1 ++ x' :: l2)) /\ pi_ns i = pi_ns id).
    { induction k as [|k IH]; intros next i; cbn; [discriminate|].
      match goal with |- context [find_element ?a ?b] => destruct (find_element a b) eqn:F' end; [apply IH|].
      intros [= <-]. split; [now apply find_none|reflexivity]. }
    destruct (free_name doublings 1 id (l1 ++ x' :: l2)) as [i|] eqn:E; [|discriminate].
    intros [= <-]. destruct (FN _ _ _ E) as (Hn & Hns). exists (l1 ++ x' :: l2), i. repeat split; auto.
    rewrite <- (renamed_idents _ _ R). exact Hn.
  - intros [= <-]. exists es, id. repeat split; auto using all_renamed_refl, find_none.
Qed.

Lemma any_adds id a mn mx es : exists es1 e, apply_any id a mn mx es = es1 ++ [e] /\ Forall2 renamed es es1 /\
  el_ident e = id /\ el_variant e = EVAny a /\ el_min e = mn /\ el_max e = mx.
Proof.
  unfold apply_any, push_any. eexists. eexists. split; [reflexivity|]. split; [|repeat split].
  generalize 0%N. induction es as [|e es IH]; intros i; cbn; [constructor|].
  destruct (generated_any e); cbn; constructor; auto using renamed_refl. now eexists.
Qed.

Lemma element_adds id t f mn mx nl es es' : ~ In id (real_names es) -> apply_element id t f mn mx nl es = Ok es' ->
  exists e, es' = es ++ [e] /\ el_ident e = id /\ el_variant e = EVType t ModeElement /\ el_min e = mn /\ el_max e = mx.
Proof.
  intros N. unfold apply_element. destruct (find_element id es) as [[[l1 x] l2]|] eqn:F.
  - destruct (FlatProofs.find_some _ _ _ _ _ F) as (-> & Ix). destruct (el_variant x) as [| |t' []] eqn:V; try discriminate.
    exfalso. apply N. rewrite real_app. apply in_or_app. right. unfold real_names. cbn. unfold is_real at 1. rewrite V. cbn. now left.
  - intros [= <-]. eexists. split; [reflexivity|]. repeat split.
Qed.

Section Build.
  Variable groups : tident -> option (compositor * list particle).
  Variable ns : nat.
  Variable field_name : nat -> option tident -> name.
  Variable type_name : nat -> tident.
  Variable finished : variant -> mtype.
  Variable mixed : bool.
  Hypothesis finished_variant : forall v, m_variant (finished v) = v.
  Variable old : tident -> Prop.

  Notation shows := (shows groups old).
  Notation stands := (stands groups old).
  Notation all_shown := (all_shown groups old).

  (** The state: old identifiers are in the map; the cache knows groups. *)
  Definition good (st : istate) : Prop :=
    (forall i, old i -> lookup i (s_types st) <> None) /\
    forall g t, lookup g (s_cache st) = Some t -> exists c ps, groups g = Some (c, ps) /\ stands (s_types st) t c ps.

  Definition grows (st st' : istate) : Prop := forall t ty, lookup t (s_types st) = Some ty -> lookup t (s_types st') = Some ty.
  Lemma grows_refl st : grows st st.
  Proof. intros t ty H. exact H. Qed.
  Lemma grows_trans a b c : grows a b -> grows b c -> grows a c.
  Proof. intros H H' t ty L. auto. Qed.
  Lemma grows_keeps a b : grows a b -> keeps old (s_types a) (s_types b).
  Proof. intros H t ty _ L. auto. Qed.

  Lemma good_types st st' : good st -> s_cache st' = s_cache st -> grows st st' -> good st'.
  Proof.
    intros (O & C) Ec G. split.
    - intros i Oi. specialize (O i Oi). destruct (lookup i (s_types st)) as [ty|] eqn:L; [|congruence]. rewrite (G i ty L). discriminate.
    - intros g t. rewrite Ec. intros L. destruct (C g t L) as (c & ps & Eg & S). exists c, ps. split; [exact Eg|].
      now apply (shown_keeps groups old _ _ (grows_keeps _ _ G)).
  Qed.

  Definition added (p : particle) (st st' : istate) (es es' : list element_meta) : Prop :=
    exists es1 e, es' = es1 ++ [e] /\ Forall2 renamed es es1 /\ shows (s_types st') p e.

  Lemma shows_real ts p e : shows ts p e -> real_names [e] = element_names [p].
  Proof.
    intros H. unfold real_names. cbn. unfold is_real. inversion H; subst; rewrite ?H1, ?H0; cbn; try rewrite H1; auto;
      match goal with H : el_variant _ = _ |- _ => rewrite H end; reflexivity.
  Qed.

  Lemma shown_real ts ps es : all_shown ts ps es -> real_names es = element_names ps.
  Proof.
    induction 1 as [|p ps e es S A IH]; [reflexivity|]. change (e :: es) with ([e] ++ es). change (p :: ps) with ([p] ++ ps).
    rewrite real_app, IH, (shows_real _ _ _ S). unfold element_names. now rewrite flat_map_app.
  Qed.

  (** Adding a type that is not there. *)
  Lemma add_new i ty st st' : add_type i ty false st = Ok st' ->
    lookup i (s_types st) = None /\ lookup i (s_types st') = Some ty /\ grows st st' /\ s_cache st' = s_cache st /\ s_next st' = s_next st.
  Proof.
    unfold add_type. destruct (lookup i (s_types st)) eqn:L; [discriminate|]. intros [= <-]. cbn. repeat split; auto.
    - rewrite lookup_snoc, L. destruct (tident_eq_dec i i); [reflexivity|congruence].
    - intros t ty' L'. cbn. now rewrite lookup_snoc, L'.
  Qed.

  Definition step_ok (f : istate -> list element_meta -> particle -> result) : Prop :=
    forall st es p st' es', good st -> tidy groups p -> (forall id, In id (element_names [p]) -> ~ In id (real_names es)) ->
      f st es p = Some (Ok (st', es')) -> good st' /\ grows st st' /\ added p st st' es es'.

  Definition filled (ps : list particle) (st st' : istate) (es es' : list element_meta) : Prop :=
    exists es1 new, es' = es1 ++ new /\ Forall2 renamed es es1 /\ all_shown (s_types st') ps new.

  Lemma fill_ok f ps : step_ok f -> forall st es st' es', good st -> Forall (tidy groups) ps -> NoDup (element_names ps) ->
    (forall id, In id (element_names ps) -> ~ In id (real_names es)) ->
    apply_particles f st es ps = Some (Ok (st', es')) -> good st' /\ grows st st' /\ filled ps st st' es es'.
  Proof.
    intros Hf. induction ps as [|p ps IH]; intros st es st' es' G T N D; cbn.
    - intros [= <- <-]. split; [exact G|]. split; [apply grows_refl|]. exists es, []. rewrite app_nil_r. repeat split; [apply all_renamed_refl|constructor].
    - destruct (f st es p) as [[[st1 es1]| |]|] eqn:F; try discriminate. intros H. inversion T as [|p' ps' Tp Tps]; subst p' ps'.
      assert (EN : element_names (p :: ps) = element_names [p] ++ element_names ps) by (unfold element_names; cbn; now rewrite app_nil_r).
      rewrite EN in N, D.
      destruct (Hf st es p st1 es1 G Tp) as (G1 & W1 & (a & e & E1 & R1 & S1)); auto.
      { intros id I. apply D. apply in_or_app. now left. }
      assert (RN : real_names es1 = real_names es ++ element_names [p]).
      { rewrite E1, real_app, (real_renamed _ _ R1), (shows_real _ _ _ S1). reflexivity. }
      destruct (IH st1 es1 st' es' G1 Tps (nodup_r _ _ N)) as (G2 & W2 & (b & new & E2 & R2 & S2)); auto.
      { intros id I. rewrite RN. intros I'. apply in_app_or in I'. destruct I' as [I'|I'].
        - apply (D id); [apply in_or_app; now right|exact I'].
        - clear - N I I'. induction (element_names [p]) as [|x l IHl]; [destruct I'|]. cbn in N. inversion N as [|y l' Nx Nl]; subst.
          destruct I' as [->|I']; [|now apply IHl]. apply Nx. apply in_or_app. now right. }
      split; [exact G2|]. split; [exact (grows_trans _ _ _ W1 W2)|]. rewrite E1 in R2. apply Forall2_app_inv_l in R2.
      destruct R2 as (b1 & b2 & Ra & Rb & ->). inversion Rb as [|x y ? ? Rxy Rn]; subst. inversion Rn; subst.
      exists b1, (y :: new). rewrite <- app_assoc. split; [reflexivity|]. split; [exact (all_renamed_trans _ _ _ R1 Ra)|].
      constructor; [|exact S2]. apply (shown_keeps groups old _ _ (grows_keeps _ _ W2)) in S1.
      destruct Rxy as (d & ->). inversion S1; subst; econstructor; eauto.
  Qed.

  (** The output of a group is added. *)
  Lemma output_ok c ps o t st st' t' : good st ->
    match o with
    | OutType g => all_shown (s_types st) ps (gr_elements g)
    | OutCached t => stands (s_types st) t c ps
    end -> add_output finished c o t st = Ok (st', t') ->
    good st' /\ grows st st' /\ stands (s_types st') t' c ps /\ (match o with OutType _ => t' = t | OutCached _ => True end).
  Proof.
    intros G Ho. unfold add_output. destruct o as [g|tc].
    - destruct (add_type t (finished (compose c g)) false st) as [st1| |] eqn:A; try discriminate. intros [= <- <-].
      destruct (add_new _ _ _ _ A) as (Ln & Ly & W & Ec & _). assert (G1 : good st1) by exact (good_types _ _ G Ec W).
      repeat split; auto; try apply G1. apply (st_group groups old _ t c ps (finished (compose c g)) g); auto.
      + intros Ot. apply (proj1 G t Ot). exact Ln.
      + now apply (shown_keeps groups old _ _ (grows_keeps _ _ W)).
    - intros [= <- <-]. repeat split; auto using grows_refl; apply G.
  Qed.

  Lemma remember_ok r b t st c ps : good st -> (forall g, r = Some g -> groups g = Some (c, ps)) ->
    (b = false -> stands (s_types st) t c ps) -> good (remember r b t st) /\ s_types (remember r b t st) = s_types st.
  Proof.
    intros G Hr Hs. unfold remember. destruct r as [g|]; [|now split]. destruct b; [now split|]. split; [|reflexivity].
    split; [exact (proj1 G)|]. intros g' t'. cbn. destruct (tident_eq_dec g' g) as [->|].
    - intros [= <-]. exists c, ps. split; [now apply Hr|now apply Hs].
    - apply (proj2 G).
  Qed.

  Lemma nested_ok f st es r c mn mx ps st' es' : step_ok f -> good st -> ps <> [] -> Forall (tidy groups) ps -> NoDup (element_names ps) ->
    (forall g, r = Some g -> groups g = Some (c, ps)) ->
    nested_group ns field_name type_name finished mixed (apply_particles f) st es r c mn mx ps = Some (Ok (st', es')) ->
    good st' /\ grows st st' /\ exists es1 e t, es' = es1 ++ [e] /\ Forall2 renamed es es1 /\ el_variant e = EVType t ModeGroup /\
      el_min e = mn /\ el_max e = mx /\ stands (s_types st') t c ps.
  Proof.
    intros Hf G NE T N Hr. unfold nested_group.
    assert (G0 : good (count_name st)) by exact (good_types st (count_name st) G eq_refl (grows_refl st)).
    set (st0 := count_name st) in *. assert (W0 : grows st st0) by (intros k ty L; exact L). clearbody st0.
    set (t := type_name (s_next st)). clearbody t. set (id := PIdent ns (field_name (s_next st) r)). clearbody id.
    assert (FIN : forall st1 o b t1, good st1 -> grows st0 st1 ->
      match o with
      | OutType g => all_shown (s_types st1) ps (gr_elements g) /\ b = false
      | OutCached t => stands (s_types st1) t c ps /\ b = true
      end ->
      match add_output finished c o t st1 with
      | Ok (st', t') =>
          match insert_checked id (group_element t' mn mx) es with
          | Ok es' => Ok (remember r b t st', es')
          | Err e => Err e
          | Panic => Panic
          end
      | Err e => Err e
      | Panic => Panic
      end = Ok t1 -> good (fst t1) /\ grows st (fst t1) /\ exists es1 e t, snd t1 = es1 ++ [e] /\ Forall2 renamed es es1 /\ el_variant e = EVType t ModeGroup /\
      el_min e = mn /\ el_max e = mx /\ stands (s_types (fst t1)) t c ps).
    { intros st1 o b t1 G1 W1 Ho. destruct (add_output finished c o t st1) as [[st2 t2]| |] eqn:A; try discriminate.
      destruct (output_ok c ps o t st1 st2 t2 G1) as (G2 & W2 & S2 & Et); auto.
      { destruct o; apply Ho. }
      destruct (insert_checked id (group_element t2 mn mx) es) as [es2| |] eqn:I; try discriminate. intros [= <-]. cbn [fst snd].
      destruct (remember_ok r b t st2 c ps G2 Hr) as (G3 & E3).
      { intros ->. destruct o; [subst t2; exact S2|]. destruct Ho; discriminate. }
      assert (W3 : grows st2 (remember r b t st2)) by (intros k ty L; now rewrite E3).
      split; [exact G3|]. split; [exact (grows_trans _ _ _ W0 (grows_trans _ _ _ W1 (grows_trans _ _ _ W2 W3)))|].
      destruct (insert_adds id (group_element t2 mn mx) es es2 (fun i => eq_refl) I) as (es1 & i & -> & R & _).
      exists es1, (group_element t2 mn mx i), t2. rewrite E3. repeat split; auto. }
    intros H. destruct (cached st0 r) as [t'|] eqn:K.
    - injection H as H. unfold cached in K. destruct r as [g|]; [|discriminate].
      destruct (proj2 G0 g t' K) as (c' & ps' & Eg & S). rewrite (Hr g eq_refl) in Eg. injection Eg as <- <-.
      apply (FIN st0 (OutCached t') true (st', es') G0 (grows_refl _)); auto.
    - destruct (apply_particles f st0 [] ps) as [[[st1 els]| |]|] eqn:F; try discriminate.
      destruct (fill_ok f ps Hf st0 [] st1 els G0 T N (fun _ _ I => I) F) as (G1 & W1 & (e0 & new & E & R & S)).
      inversion R; subst e0. cbn in E. subst els. destruct new as [|n new].
      + inversion S. subst ps. now contradiction NE.
      + injection H as H. apply (FIN st1 (OutType (GroupMeta mixed (n :: new))) false (st', es') G1 W1); auto.
  Qed.

  Lemma particle_ok fuel : step_ok (apply_particle groups ns field_name type_name finished mixed fuel).
  Proof.
    induction fuel as [|fuel IH]; intros st es p st' es' G T N; cbn; [discriminate|].
    destruct p as [id t f mn mx nl|id a mn mx|c mn mx ps|g mn mx].
    - destruct (apply_element id t f mn mx nl es) as [es1| |] eqn:A; try discriminate. intros [= <- <-].
      destruct (element_adds _ _ _ _ _ _ _ _ (N id (or_introl eq_refl)) A) as (e & -> & I & V & Mn & Mx).
      split; [exact G|]. split; [apply grows_refl|]. exists es, e. repeat split; auto using all_renamed_refl. now constructor.
    - intros [= <- <-]. destruct (any_adds id a mn mx es) as (es1 & e & -> & R & I & V & Mn & Mx).
      split; [exact G|]. split; [apply grows_refl|]. exists es1, e. repeat split; auto. now constructor.
    - inversion T as [| |c' mn' mx' ps' NE ND TS|]; subst. intros H.
      destruct (nested_ok _ _ _ _ _ _ _ _ _ _ IH G NE TS ND (fun (g : tident) (E : None = Some g) => ltac:(discriminate)) H) as (G' & W & es1 & e & t & -> & R & V & Mn & Mx & S).
      split; [exact G'|]. split; [exact W|]. exists es1, e. repeat split; auto. now apply (sh_group groups old _ c mn mx ps e t).
    - inversion T as [| | |g' c mn' mx' ps Eg NE ND TS]; subst. rewrite Eg. intros H.
      destruct (nested_ok _ _ _ (Some g) _ _ _ _ _ _ IH G NE TS ND (fun g1 (E : Some g = Some g1) => ltac:(injection E as <-; exact Eg)) H) as (G' & W & es1 & e & t & -> & R & V & Mn & Mx & S).
      split; [exact G'|]. split; [exact W|]. exists es1, e. repeat split; auto. now apply (sh_ref groups old _ g c mn mx ps e t).
  Qed.
End Build.

(** ** Types that are only added to *)

Definition more_types (ts ts' : types) : Prop := forall t ty, lookup t ts = Some ty -> lookup t ts' = Some ty.

Lemma more_inside ts ts' c t : groups_present ts -> more_types ts ts' -> inside ts' c t -> lookup c ts <> None -> lookup t ts <> None.
Proof.
  intros GP M. induction 1 as [c|c ty m g e t t' L G I Ge R IH]; intros P; [exact P|]. apply IH.
  destruct (lookup c ts) as [ty0|] eqn:L0; [|congruence]. rewrite (M _ _ L0) in L. injection L as <-.
  destruct (GP c ty0 m g e t L0 G I Ge) as (ty' & L'). congruence.
Qed.

Lemma more_same ts ts' t : more_types ts ts' -> lookup t ts <> None -> same_at ts ts' t.
Proof. intros M P. unfold same_at, shape. destruct (lookup t ts) as [ty|] eqn:L; [|congruence]. now rewrite (M _ _ L). Qed.

Lemma more_refl ts : more_types ts ts.
Proof. intros t ty H. exact H. Qed.

Lemma more_part ts ts' e w : groups_present ts -> more_types ts ts' -> (forall t, is_group e = Some t -> lookup t ts <> None) ->
  part ts e w <-> part ts' e w.
Proof.
  intros GP M P. split; intros H.
  - apply (part_frame ts ts' e w H). intros t G t' I. apply (more_same _ _ _ M). apply (more_inside ts ts t t' GP (more_refl ts) I). auto.
  - apply (part_frame ts' ts e w H). intros t G t' I. unfold same_at. symmetry. apply (more_same _ _ _ M). apply (more_inside ts ts' t t' GP M I). auto.
Qed.

Lemma once_accepts ts c t x w : cx_content x = Some c -> t = c -> occurs_once x -> complex_accepts ts x w <-> accepts ts t w.
Proof.
  intros C -> (Mn & Mx). split.
  - intros (c' & n & C' & (W1 & W2) & T). rewrite C in C'. injection C' as <-. rewrite Mn in W1. rewrite Mx in W2. cbn in W2.
    destruct (times_few _ _ _ T W2) as [(E & _)|(_ & H)]; [lia|exact H].
  - intros H. exists c, 1. split; [exact C|]. split; [split; [lia|rewrite Mx; cbn; lia]|].
    rewrite <- (app_nil_r w). constructor; [exact H|constructor].
Qed.

Lemma io_app_iff {A B} (P : A -> list B -> Prop) es es' w : in_order P (es ++ es') w <-> exists u v, w = u ++ v /\ in_order P es u /\ in_order P es' v.
Proof.
  split.
  - revert w. induction es as [|e es IH]; intros w H; cbn in H.
    + exists [], w. repeat split; [constructor|exact H].
    + inversion H as [|e' es0 v w' Pv R]; subst. destruct (IH _ R) as (u & v' & -> & I1 & I2).
      exists (v ++ u), v'. rewrite app_assoc. repeat split; [now constructor|exact I2].
  - intros (u & v & -> & I1 & I2). now apply io_app.
Qed.

Lemma io_one {A B} (P : A -> list B -> Prop) e w : in_order P [e] w <-> P e w.
Proof.
  split.
  - intros H. inversion H as [|e' es v w' Pv R]; subst. inversion R; subst. now rewrite app_nil_r.
  - intros H. rewrite <- (app_nil_r w). constructor; [exact H|constructor].
Qed.

Section Derive.
  Variable groups : tident -> option (compositor * list particle).
  Variable ns : nat.
  Variable field_name : nat -> option tident -> name.
  Variable type_name : nat -> tident.
  Variable finished : variant -> mtype.
  Variable mixed : bool.
  Hypothesis finished_variant : forall v, m_variant (finished v) = v.

  Notation fill fuel := (apply_particles (apply_particle groups ns field_name type_name finished mixed fuel)).
  Notation complex_group := (complex_group groups ns field_name type_name finished mixed).

  Definition present (st : istate) (i : tident) : Prop := lookup i (s_types st) <> None.

  Lemma good_start st : s_cache st = [] -> good groups (present st) st.
  Proof. intros E. split; [intros i H; exact H|]. rewrite E. discriminate. Qed.

  (** A complex type without content gets the content of the particle. *)
  Lemma empty_ok fuel st x r c mn mx ps st' x' : cx_content x = None -> s_cache st = [] -> ps <> [] -> Forall (tidy groups) ps ->
    NoDup (element_names ps) -> complex_group fuel st x r c mn mx ps = Some (Ok (st', x')) ->
    more_types (s_types st) (s_types st') /\ (exists t, cx_content x' = Some t) /\
    forall w, complex_accepts (s_types st') x' w <-> exists n, within mn mx n /\ times (composed (says groups) c ps) n w.
  Proof.
    intros C Ec NE T N. unfold ContentModel.complex_group. rewrite C.
    assert (G0 : good groups (present st) (count_name st)) by exact (good_start st Ec).
    assert (K : cached (count_name st) r = None) by (unfold cached; destruct r; [cbn; now rewrite Ec|reflexivity]).
    rewrite K. destruct (fill fuel (count_name st) [] ps) as [[[st1 els]| |]|] eqn:F; try discriminate.
    destruct (fill_ok groups (present st) _ ps (particle_ok groups ns field_name type_name finished mixed finished_variant (present st) fuel)
      (count_name st) [] st1 els G0 T N (fun _ _ I => I) F) as (G1 & W1 & (e0 & new & E & R & S)).
    inversion R; subst e0. cbn in E. subst els. destruct new as [|e new]; [inversion S; subst; now contradiction NE|].
    destruct (add_output finished c (OutType (GroupMeta mixed (e :: new))) (type_name (s_next st)) st1) as [[st2 t]| |] eqn:A; try discriminate.
    destruct (output_ok groups finished finished_variant (present st) c ps (OutType (GroupMeta mixed (e :: new))) (type_name (s_next st)) st1 st2 t G1 S A) as (G2 & W2 & S2 & _).
    intros [= <- <-]. assert (Et : s_types (remember r false (type_name (s_next st)) st2) = s_types st2) by (unfold remember; destruct r; reflexivity).
    rewrite Et. split; [|split; [now exists t|]].
    - intros k ty L. apply W2, W1. exact L.
    - intros w. pose proof (proj1 (proj2 (shown_meaning groups (present st) (s_types st2))) t c ps S2) as Q. split.
      + intros (c' & n & [= <-] & W & Tm). exists n. split; [exact W|]. now apply (times_iff _ _ n w Q).
      + intros (n & W & Tm). exists t, n. split; [reflexivity|]. split; [exact W|]. now apply (times_iff _ _ n w Q).
  Qed.

  (** A sequence is extended. *)
  Lemma extend_ok fuel st x ci ty g r c mn mx ps st' x' : cx_content x = Some ci -> lookup ci (s_types st) = Some ty ->
    m_variant ty = VSequence g -> s_cache st = [] -> ps <> [] -> Forall (tidy groups) ps -> NoDup (element_names ps) ->
    occurs_once x -> (c = CSequence -> mn = 1 /\ mx = Bounded 1) ->
    (c = CSequence -> forall id, In id (element_names ps) -> ~ In id (map el_ident (gr_elements g))) ->
    complex_group fuel st x r c mn mx ps = Some (Ok (st', x')) ->
    (forall t ty, t <> ci -> lookup t (s_types st) = Some ty -> lookup t (s_types st') = Some ty) /\
    cx_content x' = Some ci /\ occurs_once x' /\
    forall w, accepts (s_types st') ci w <-> exists u v, w = u ++ v /\ in_order (part (s_types st')) (gr_elements g) u /\
      exists n, within mn mx n /\ times (composed (says groups) c ps) n v.
  Proof.
    intros C L V Ec NE T N O Once D. unfold ContentModel.complex_group. rewrite C. cbn [count_name s_types]. rewrite L.
    assert (G0 : good groups (present st) (count_name st)) by exact (good_start st Ec).
    assert (K : cached (count_name st) r = None) by (unfold cached; destruct r; [cbn; now rewrite Ec|reflexivity]).
    pose proof (particle_ok groups ns field_name type_name finished mixed finished_variant (present st) fuel) as PO.
    assert (Pci : present st ci) by (unfold present; congruence). rewrite V.
    destruct (same_compositor c (VSequence g)) as [g0|] eqn:SC; [assert (c = CSequence /\ g0 = g) as (-> & ->) by (destruct c; cbn in SC; try discriminate SC; split; congruence)|].
    - destruct (Once eq_refl) as (-> & ->). destruct (fill fuel (count_name st) (gr_elements g) ps) as [[[st1 els]| |]|] eqn:F; try discriminate.
      destruct (fill_ok groups (present st) _ ps PO (count_name st) (gr_elements g) st1 els G0 T N) as (G1 & W1 & (es1 & new & -> & R & S)); auto.
      { intros id Ii Ir. apply (D eq_refl id Ii). unfold real_names in Ir. apply in_map_iff in Ir. destruct Ir as (e & <- & Ie).
        apply filter_In in Ie. apply in_map. apply Ie. }
      destruct new as [|e new]; [inversion S; subst; now contradiction NE|].
      destruct (es1 ++ e :: new) as [|h tl] eqn:El; [destruct es1; discriminate El|]. rewrite <- El in *. clear El h tl.
      unfold add_type. rewrite (W1 _ _ L). set (ty2 := finished _). intros [= <- <-].
      assert (Et : s_types (remember r match cached (count_name st) r with Some _ => true | None => false end (type_name (s_next st))
        (IState (set_entry ci ty2 (s_types st1)) (s_cache st1) (s_next st1))) = set_entry ci ty2 (s_types st1))
        by (unfold remember; destruct r; [destruct (cached (count_name st) (Some t)); reflexivity|reflexivity]).
      rewrite Et. set (ts' := set_entry ci ty2 (s_types st1)).
      assert (Lk : forall k, k <> ci -> lookup k ts' = lookup k (s_types st1)).
      { intros k Nk. unfold ts'. rewrite lookup_entry. destruct (tident_eq_dec ci k); [congruence|reflexivity]. }
      assert (Kp : keeps (present st) (s_types st1) ts').
      { intros k ty' Nk Lk'. rewrite Lk; [exact Lk'|]. intros ->. now apply Nk. }
      assert (Lc : lookup ci ts' = Some ty2).
      { unfold ts'. rewrite lookup_entry. destruct (tident_eq_dec ci ci); [|congruence]. now rewrite (W1 _ _ L). }
      split; [|split; [reflexivity|split]].
      + intros k ty' Nk Lk'. rewrite (Lk k Nk). apply W1. exact Lk'.
      + destruct O as (O1 & O2). unfold occurs_once, set_content. cbn. rewrite O1, O2. split; reflexivity.
      + intros w. rewrite (accepts_composed ts' ci ty2 CSequence (GroupMeta mixed (es1 ++ e :: new)) w Lc (finished_variant _)). cbn [gr_elements].
        pose proof (proj2 (proj2 (shown_keeps groups (present st) _ _ Kp)) _ _ S) as S3.
        pose proof (proj2 (proj2 (shown_meaning groups (present st) ts')) _ _ S3) as Q.
        split.
        * intros H. inversion H as [ps0 w0 Io| |]; subst. apply io_app_iff in Io. destruct Io as (u & v & -> & I1 & I2).
          exists u, v. split; [reflexivity|]. split; [now apply (in_order_iff _ _ _ _ (renamed_parts ts' _ _ R))|].
          exists 1. split; [split; cbn; lia|]. rewrite <- (app_nil_r v). constructor; [|constructor]. constructor. now apply (in_order_iff _ _ _ _ Q).
        * intros (u & v & -> & I1 & n & (Wa & Wb) & Tm). cbn in Wb. constructor. apply io_app_iff. exists u, v. split; [reflexivity|].
          split; [now apply (in_order_iff _ _ _ _ (renamed_parts ts' _ _ R))|].
          destruct (times_few _ _ _ Tm Wb) as [(E0 & _)|(_ & H)]; [lia|]. inversion H; subst. now apply (in_order_iff _ _ _ _ Q).
      - rewrite K. destruct (fill fuel (count_name st) [] ps) as [[[st1 els]| |]|] eqn:F; try discriminate.
      destruct (fill_ok groups (present st) _ ps PO (count_name st) [] st1 els G0 T N (fun _ _ I => I) F) as (G1 & W1 & (e0 & new & E & R & S)).
      inversion R; subst e0. cbn in E. subst els. destruct new as [|e new]; [inversion S; subst; now contradiction NE|].
      destruct (add_output finished c (OutType (GroupMeta mixed (e :: new))) (type_name (s_next st)) st1) as [[st2 t]| |] eqn:A; try discriminate.
      destruct (output_ok groups finished finished_variant (present st) c ps (OutType (GroupMeta mixed (e :: new))) (type_name (s_next st)) st1 st2 t G1 S A) as (G2 & W2 & S2 & _).
      rewrite (W2 _ _ (W1 _ _ L)), V. cbn [any_compositor].
      destruct (insert_checked _ _ (gr_elements g)) as [es'| |] eqn:I; try discriminate. intros [= <- <-].
      match type of I with insert_checked ?id (group_element t mn mx) _ = _ =>
        destruct (insert_adds id (group_element t mn mx) (gr_elements g) es' (fun i => eq_refl) I) as (es1 & i & -> & Rn & _) end.
      set (ty2 := set_variant ty _).
      assert (Et : s_types (remember r false (type_name (s_next st)) (IState (set_entry ci ty2 (s_types st2)) (s_cache st2) (s_next st2))) = set_entry ci ty2 (s_types st2))
        by (unfold remember; destruct r; reflexivity).
      rewrite Et. set (ts' := set_entry ci ty2 (s_types st2)).
      assert (Lk : forall k, k <> ci -> lookup k ts' = lookup k (s_types st2)).
      { intros k Nk. unfold ts'. rewrite lookup_entry. destruct (tident_eq_dec ci k); [congruence|reflexivity]. }
      assert (Kp : keeps (present st) (s_types st2) ts').
      { intros k ty' Nk Lk'. rewrite Lk; [exact Lk'|]. intros ->. now apply Nk. }
      assert (Lc : lookup ci ts' = Some ty2).
      { unfold ts'. rewrite lookup_entry. destruct (tident_eq_dec ci ci); [|congruence]. now rewrite (W2 _ _ (W1 _ _ L)). }
      split; [|split; [exact C|split; [exact O|]]].
      + intros k ty' Nk Lk'. rewrite (Lk k Nk). apply W2, W1. exact Lk'.
      + intros w. rewrite (accepts_composed ts' ci ty2 CSequence (GroupMeta (gr_mixed g) (es1 ++ [group_element t mn mx i])) w Lc eq_refl). cbn [gr_elements].
        pose proof (proj1 (proj2 (shown_keeps groups (present st) _ _ Kp)) t c ps S2) as S3.
        pose proof (proj1 (proj2 (shown_meaning groups (present st) ts')) t c ps S3) as Q.
        assert (PG : forall v, part ts' (group_element t mn mx i) v <-> exists n, within mn mx n /\ times (composed (says groups) c ps) n v).
        { intros v. split.
          - intros H. inversion H as [e' t' n w' Ge Wi Tm|e' n Ge Wi]; subst; [|discriminate Ge]. injection Ge as <-.
            exists n. split; [exact Wi|]. now apply (times_iff _ _ n v Q).
          - intros (n & Wi & Tm). apply (part_group ts' _ t n); [reflexivity|exact Wi|]. now apply (times_iff _ _ n v Q). }
        split.
        * intros H. inversion H as [ps0 w0 Io| |]; subst. apply io_app_iff in Io. destruct Io as (u & v & -> & I1 & I2).
          exists u, v. split; [reflexivity|]. apply (proj1 (io_one _ _ _)) in I2. split; [|exact (proj1 (PG v) I2)].
          now apply (in_order_iff _ _ _ _ (renamed_parts ts' _ _ Rn)).
        * intros (u & v & -> & I1 & I2). constructor. apply io_app_iff. exists u, v. split; [reflexivity|]. split; [|apply io_one; exact (proj2 (PG v) I2)].
          now apply (in_order_iff _ _ _ _ (renamed_parts ts' _ _ Rn)).
  Qed.
  Lemma says_made p c mn mx ps w : made_of groups p c mn mx ps ->
    says groups p w <-> exists n, within mn mx n /\ times (composed (says groups) c ps) n w.
  Proof.
    intros M. destruct M as [c mn mx ps|g c mn mx ps Eg]; split.
    - intros H. inversion H; subst. eauto.
    - intros (n & W & T). econstructor; eauto.
    - intros H. inversion H as [| | |g' c' mn' mx' ps' n w' E' W T]; subst. rewrite Eg in E'. injection E' as <- <-. eauto.
    - intros (n & W & T). econstructor; eauto.
  Qed.

  Lemma tidy_made p c mn mx ps : made_of groups p c mn mx ps -> tidy groups p -> ps <> [] /\ Forall (tidy groups) ps /\ NoDup (element_names ps).
  Proof.
    intros M T. destruct M as [c mn mx ps|g c mn mx ps Eg].
    - inversion T; subst; auto.
    - inversion T as [| | |g' c' mn' mx' ps' E' NE N F]; subst. rewrite Eg in E'. injection E' as <- <-. auto.
  Qed.

  Lemma content_made fuel st x p c mn mx ps : made_of groups p c mn mx ps ->
    exists r, apply_content groups ns field_name type_name finished mixed fuel st x p = complex_group fuel st x r c mn mx ps.
  Proof. intros M. destruct M as [c mn mx ps|g c mn mx ps Eg]; cbn; [now exists None|]. rewrite Eg. now exists (Some g). Qed.

  Lemma content_is_made fuel st x p r : apply_content groups ns field_name type_name finished mixed fuel st x p = Some (Ok r) ->
    exists c mn mx ps, made_of groups p c mn mx ps.
  Proof.
    destruct p as [| |c mn mx ps|g mn mx]; cbn; try discriminate.
    - intros _. exists c, mn, mx, ps. constructor.
    - destruct (groups g) as [[c ps]|] eqn:E; [|discriminate]. intros _. exists c, mn, mx, ps. now constructor.
  Qed.

  Lemma fresh_content fuel st x p st' x' : cx_content x = None -> s_cache st = [] -> tidy groups p ->
    apply_content groups ns field_name type_name finished mixed fuel st x p = Some (Ok (st', x')) ->
    more_types (s_types st) (s_types st') /\ forall w, allows_children (s_types st') x' w <-> says groups p w.
  Proof.
    intros C Ec T H. destruct (content_is_made _ _ _ _ _ H) as (c & mn & mx & ps & M).
    destruct (content_made fuel st x p c mn mx ps M) as (r & E). rewrite E in H.
    destruct (tidy_made _ _ _ _ _ M T) as (NE & F & N).
    destruct (empty_ok fuel st x r c mn mx ps st' x' C Ec NE F N H) as (W & (t & Ct) & Q). split; [exact W|].
    intros w. unfold allows_children. rewrite Ct, (says_made _ _ _ _ _ w M). apply Q.
  Qed.

  Lemma interpret_ok fuel st p st' x : s_cache st = [] -> tidy groups p ->
    interpret groups ns field_name type_name finished mixed fuel st p = Some (Ok (st', x)) ->
    more_types (s_types st) (s_types st') /\ forall w, allows_children (s_types st') x w <-> says groups p w.
  Proof. intros Ec T H. exact (fresh_content fuel st (complex_default mixed) p st' x eq_refl Ec T H). Qed.

  Lemma variant_is fuel ts i x : complex_variant fuel ts i = Some (Ok x) -> base_is ts i x.
  Proof.
    revert i. induction fuel as [|fuel IH]; intros i; cbn; [discriminate|]. unfold get_variant.
    destruct (lookup i ts) as [ty|] eqn:L; [|discriminate]. cbn. destruct (m_variant ty) as [| | | | |d| | | |y|] eqn:V; try discriminate.
    - destruct (dy_type d) as [j|] eqn:D; [|discriminate]. intros H. apply (base_dynamic ts i ty d j x); auto.
    - intros [= <-]. now apply (base_complex ts i ty).
  Qed.

  Lemma base_unique ts i x : base_is ts i x -> forall y, base_is ts i y -> x = y.
  Proof.
    induction 1 as [i ty x L V|i ty d j x L V D B IH]; intros y H; inversion H; subst; try congruence.
    apply IH. congruence.
  Qed.

  Lemma sequence_accepts ts c ty g w : lookup c ts = Some ty -> m_variant ty = VSequence g ->
    accepts ts c w <-> in_order (part ts) (gr_elements g) w.
  Proof.
    intros L V. split.
    - intros H. inversion H; congruence.
    - intros H. now apply (acc_sequence ts c ty g).
  Qed.

  Lemma extension_ok fuel st base x p c mn mx ps st' x' es : s_cache st = [] -> tidy groups p -> made_of groups p c mn mx ps ->
    base_is (s_types st) base x -> groups_present (s_types st) ->
    (cx_content x = None \/ occurs_once x /\ sequence_content (s_types st) x /\ content_elements (s_types st) x es /\
      (c = CSequence -> mn = 1 /\ mx = Bounded 1 /\ forall id, In id (element_names ps) -> ~ In id (map el_ident es))) ->
    derive groups ns field_name type_name finished mixed fuel Extension st base p = Some (Ok (st', x')) ->
    more_types (s_types st) (s_types st') /\ cx_base x' = BaseExt base /\
    forall w, allows_children (s_types st') x' w <-> exists u v, w = u ++ v /\ allows_children (s_types st) x u /\ says groups p v.
  Proof.
    intros Ec T M B GP Hb. unfold derive, copy_base.
    destruct (complex_variant fuel (s_types st) base) as [[y| |]|] eqn:CV; try discriminate.
    apply variant_is in CV. rewrite <- (base_unique _ _ _ B _ CV). clear y CV B.
    destruct Hb as [C|(O & (ci & ty & g & C & L & V) & (ci' & ty' & m' & g' & C' & L' & V' & Ees) & D)].
    - rewrite C. set (x0 := ComplexMeta _ _ _ _ _ _ _).
      destruct (apply_content _ _ _ _ _ _ fuel st x0 p) as [[[st1 x1]| |]|] eqn:A; try discriminate. intros [= <- <-].
      destruct (fresh_content fuel st x0 p st1 x1 eq_refl Ec T A) as (W & Q). split; [exact W|]. split; [reflexivity|].
      intros w. unfold allows_children at 1. cbn [cx_content]. unfold allows_children at 1 in Q.
      replace (match cx_content x1 with Some _ => complex_accepts (s_types st1) (ComplexMeta (BaseExt base) (cx_content x1) (cx_min x1) (cx_max x1)
        (cx_dynamic x1) (cx_mixed x1) (cx_attrs x1)) w | None => w = [] end) with (match cx_content x1 with Some _ => complex_accepts (s_types st1) x1 w | None => w = [] end) by (destruct x1; reflexivity).
      rewrite Q. unfold allows_children. rewrite C. split.
      + intros H. exists [], w. auto.
      + intros (u & v & -> & -> & H). exact H.
    - rewrite C in C'. injection C' as <-. rewrite L in L'. injection L' as <-. rewrite V in V'. cbn in V'. injection V' as <- <-.
      rewrite C, L. change (copied_content Extension ty) with ty. set (t := type_name (s_next st)).
      destruct (add_type t ty false (count_name st)) as [st1| |] eqn:A; try discriminate.
      destruct (add_new _ _ _ _ A) as (Ln & Ly & W1 & Ec1 & _). cbn [count_name s_types s_cache] in Ln, Ec1.
      cbv beta iota zeta. set (x0 := ComplexMeta _ _ _ _ _ _ _).
      destruct (apply_content _ _ _ _ _ _ fuel st1 x0 p) as [[[st2 x1]| |]|] eqn:Ap; try discriminate. intros [= <- <-].
      destruct (content_made fuel st1 x0 p c mn mx ps M) as (r & E). rewrite E in Ap.
      destruct (tidy_made _ _ _ _ _ M T) as (NE & F & N).
      destruct (extend_ok fuel st1 x0 t ty g r c mn mx ps st2 x1) as (W2 & Ct & Ot & Q); auto.
      { congruence. }
      { intros Hc. destruct (D Hc) as (D1 & D2 & _). auto. }
      { intros Hc id. rewrite Ees. now apply (D Hc). }
      assert (W : more_types (s_types st) (s_types st2)).
      { intros k ty' Lk. apply W2; [intros ->; congruence|]. apply W1. exact Lk. }
      split; [exact W|]. split; [reflexivity|]. intros w. unfold allows_children at 1. cbn [cx_content]. rewrite Ct.
      set (x2 := ComplexMeta _ _ _ _ _ _ _).
      rewrite (once_accepts (s_types st2) t t x2 w eq_refl eq_refl Ot). rewrite Q.
      assert (PE : forall u, allows_children (s_types st) x u <-> in_order (part (s_types st2)) (gr_elements g) u).
      { intros u. unfold allows_children. rewrite C. rewrite (once_accepts (s_types st) ci ci x u C eq_refl O).
        rewrite (sequence_accepts _ _ _ _ u L V). apply in_order_iff.
        assert (GG : forall e, In e (gr_elements g) -> forall t, is_group e = Some t -> lookup t (s_types st) <> None).
        { intros e I t0 Ge. destruct (GP ci ty GSequence g e t0 L) as (ty' & L2); auto; [now rewrite V|congruence]. }
        clear - GG GP W. induction (gr_elements g) as [|e l IH]; constructor.
        - intros w. apply more_part; auto. apply GG. now left.
        - apply IH. intros e' I. apply GG. now right. }
      split.
      + intros (u & v & -> & I1 & I2). exists u, v. split; [reflexivity|]. split; [now apply PE|]. now apply (says_made _ _ _ _ _ v M).
      + intros (u & v & -> & I1 & I2). exists u, v. split; [reflexivity|]. split; [now apply PE|]. now apply (says_made _ _ _ _ _ v M).
  Qed.

  (** ** Restrictions *)

  Lemma shown_renamed old ts ps es : all_shown groups old ts ps es -> forall es', Forall2 renamed es es' -> all_shown groups old ts ps es'.
  Proof.
    induction 1 as [|p ps e es S A IH]; intros es' R; inversion R as [|? e' ? es0 Re Rs]; subst; constructor; auto.
    destruct Re as (d & ->). inversion S; subst; econstructor; eauto.
  Qed.

  Lemma find_at id l1 x l2 : ~ In id (map el_ident l1) -> el_ident x = id -> find_element id (l1 ++ x :: l2) = Some (l1, x, l2).
  Proof.
    induction l1 as [|a l1 IH]; intros N E; cbn in *.
    - destruct (pident_eq_dec (el_ident x) id); [reflexivity|congruence].
    - destruct (pident_eq_dec (el_ident a) id) as [e|]; [exfalso; apply N; now left|]. now rewrite IH by auto.
  Qed.

  (** Declaring elements again updates them in place. *)
  Lemma redeclare_ok old fuel ps : forall st done rest st' es', NoDup (map el_ident (done ++ rest)) -> Forall2 redeclares ps rest ->
    fill fuel st (done ++ rest) ps = Some (Ok (st', es')) ->
    st' = st /\ exists rest', es' = done ++ rest' /\ all_shown groups old (s_types st) ps rest' /\ map el_ident rest' = map el_ident rest.
  Proof.
    induction ps as [|p ps IH]; intros st done rest st' es' N R H; inversion R as [|? e ? rest0 Re Rs]; subst; cbn in H.
    - injection H as <- <-. split; [reflexivity|]. exists []. repeat split. constructor.
    - destruct fuel as [|fuel]; [discriminate|]. destruct p as [id t f mn mx nl| | |]; try contradiction. destruct Re as (Ei & Ev).
      cbn in H. unfold apply_element in H. assert (Nd : ~ In id (map el_ident done)).
      { rewrite map_app in N. cbn in N. apply NoDup_remove_2 in N. rewrite <- Ei. intros I. apply N. apply in_or_app. now left. }
      rewrite (find_at id done e rest0 Nd Ei), Ev in H. set (e1 := update_element mn mx nl e) in *.
      replace (done ++ e1 :: rest0) with ((done ++ [e1]) ++ rest0) in H by now rewrite <- app_assoc.
      destruct (IH st (done ++ [e1]) rest0 st' es') as (-> & rest' & -> & S & Er); auto.
      { rewrite <- app_assoc. cbn. rewrite map_app in *. exact N. }
      split; [reflexivity|]. exists (e1 :: rest'). rewrite <- app_assoc. split; [reflexivity|]. split; [|cbn; now rewrite Er].
      constructor; [|exact S]. constructor; auto.
  Qed.

  Lemma fill_app fuel ps : forall ps' st es r, fill fuel st es (ps ++ ps') = Some (Ok r) ->
    exists st1 es1, fill fuel st es ps = Some (Ok (st1, es1)) /\ fill fuel st1 es1 ps' = Some (Ok r).
  Proof.
    induction ps as [|p ps IH]; intros ps' st es r H; cbn in *; [eauto|].
    destruct (apply_particle groups ns field_name type_name finished mixed fuel st es p) as [[[st1 es1]| |]|]; try discriminate. eauto.
  Qed.

  Lemma restriction_ok fuel st base x p c mn mx ps ps1 ps2 st' x' es : s_cache st = [] -> tidy groups p -> made_of groups p c mn mx ps ->
    base_is (s_types st) base x ->
    (cx_content x = None \/ occurs_once x /\ sequence_content (s_types st) x /\ content_elements (s_types st) x es /\
      c = CSequence /\ mn = 1 /\ mx = Bounded 1 /\ NoDup (map el_ident es) /\ ps = ps1 ++ ps2 /\
      Forall2 redeclares ps1 (filter (fun e => Nat.ltb 0 (el_min e)) es)) ->
    derive groups ns field_name type_name finished mixed fuel Restriction st base p = Some (Ok (st', x')) ->
    more_types (s_types st) (s_types st') /\ cx_base x' = BaseRes base /\
    forall w, allows_children (s_types st') x' w <-> says groups p w.
  Proof.
    intros Ec T M B Hb. unfold derive, copy_base.
    destruct (complex_variant fuel (s_types st) base) as [[y| |]|] eqn:CV; try discriminate.
    apply variant_is in CV. rewrite <- (base_unique _ _ _ B _ CV). clear y CV B.
    destruct Hb as [C|(O & (ci & ty & g & C & L & V) & (ci' & ty' & m' & g' & C' & L' & V' & Ees) & -> & -> & -> & N & -> & R)].
    - rewrite C. set (x0 := ComplexMeta _ _ _ _ _ _ _).
      destruct (apply_content _ _ _ _ _ _ fuel st x0 p) as [[[st1 x1]| |]|] eqn:A; try discriminate. intros [= <- <-].
      destruct (fresh_content fuel st x0 p st1 x1 eq_refl Ec T A) as (W & Q). split; [exact W|]. split; [reflexivity|].
      intros w. rewrite <- Q. destruct x1; reflexivity.
    - rewrite C in C'. injection C' as <-. rewrite L in L'. injection L' as <-. rewrite V in V'. cbn in V'. injection V' as <- <-.
      rewrite C, L. set (t := type_name (s_next st)).
      destruct (add_type t (copied_content Restriction ty) false (count_name st)) as [st1| |] eqn:A; try discriminate.
      destruct (add_new _ _ _ _ A) as (Ln & Ly & W1 & Ec1 & _). cbn [count_name s_types s_cache] in Ln, Ec1.
      cbv beta iota zeta. set (x0 := ComplexMeta _ _ _ _ _ _ _).
      destruct (apply_content _ _ _ _ _ _ fuel st1 x0 p) as [[[st2 x1]| |]|] eqn:Ap; try discriminate. intros [= <- <-].
      destruct (content_made fuel st1 x0 p CSequence 1 (Bounded 1) (ps1 ++ ps2) M) as (r & E). rewrite E in Ap.
      destruct (tidy_made _ _ _ _ _ M T) as (NE & F & Ne).
      unfold ContentModel.complex_group in Ap. cbn [cx_content x0 count_name s_types] in Ap. rewrite Ly in Ap.
      unfold copied_content in Ap. rewrite V in Ap. cbn [any_compositor compose set_variant m_variant same_compositor gr_elements] in Ap.
      set (kept := filter (fun e => Nat.ltb 0 (el_min e)) es) in *. rewrite Ees in Ap. fold kept in Ap.
      assert (Nk : NoDup (map el_ident kept)).
      { unfold kept. clear - N. induction es as [|e l IH]; cbn in *; [constructor|]. inversion N as [|a b Na Nb]; subst.
        destruct (Nat.ltb 0 (el_min e)); cbn; auto. constructor; auto. intros I. apply Na. apply in_map_iff in I.
        destruct I as (z & Ez & Iz). apply filter_In in Iz. rewrite <- Ez. now apply in_map. }
      destruct (fill fuel (count_name st1) kept (ps1 ++ ps2)) as [[[st3 els]| |]|] eqn:Fi; try discriminate.
      apply fill_app in Fi. destruct Fi as (sa & ea & Fa & Fb).
      destruct (redeclare_ok (present st1) fuel ps1 (count_name st1) [] kept sa ea Nk R Fa) as (-> & rest & Er & Sa & Ei). cbn in Er. subst ea.
      assert (G0 : good groups (present st1) (count_name st1)) by (apply (good_start st1); congruence).
      apply Forall_app in F. destruct F as (F1 & F2).
      assert (EN : element_names (ps1 ++ ps2) = element_names ps1 ++ element_names ps2) by (unfold element_names; now rewrite flat_map_app).
      destruct (fill_ok groups (present st1) _ ps2 (particle_ok groups ns field_name type_name finished mixed finished_variant (present st1) fuel)
        (count_name st1) rest st3 els G0 F2) as (G1 & W3 & (es1 & new & -> & Rn & S)); auto.
      { rewrite EN in Ne. now apply nodup_r in Ne. }
      { intros id I2. rewrite (shown_real groups (present st1) _ _ _ Sa). intros I1. rewrite EN in Ne. clear - Ne I1 I2.
        induction (element_names ps1) as [|a l IH]; [destruct I1|]. cbn in Ne. inversion Ne as [|? ? Na Nb]; subst.
        destruct I1 as [->|I1]; [|now apply IH]. apply Na. apply in_or_app. now right. }
      assert (All : all_shown groups (present st1) (s_types st3) (ps1 ++ ps2) (es1 ++ new)).
      { apply shown_app; [|exact S]. apply (shown_renamed (present st1) _ _ rest); [|exact Rn].
        apply (shown_keeps groups (present st1) _ _ (grows_keeps (present st1) _ _ W3)). exact Sa. }
      destruct (es1 ++ new) as [|h tl] eqn:El; [inversion All as [Eq|]; now contradiction NE|]. 
      unfold add_type in Ap. rewrite (W3 _ _ Ly) in Ap. set (ty2 := finished _) in *. injection Ap as <- <-.
      assert (Et : forall z, s_types (remember r z (type_name (s_next st1)) (IState (set_entry t ty2 (s_types st3)) (s_cache st3) (s_next st3))) = set_entry t ty2 (s_types st3))
        by (intros z; unfold remember; destruct r; [destruct z; reflexivity|reflexivity]).
      rewrite Et. set (ts' := set_entry t ty2 (s_types st3)).
      assert (Lk : forall k, k <> t -> lookup k ts' = lookup k (s_types st3)).
      { intros k Nt. unfold ts'. rewrite lookup_entry. destruct (tident_eq_dec t k); [congruence|reflexivity]. }
      assert (Kp : keeps (present st1) (s_types st3) ts').
      { intros k ty' Np Lk'. rewrite Lk; [exact Lk'|]. intros ->. apply Np. unfold present. congruence. }
      assert (Lc : lookup t ts' = Some ty2).
      { unfold ts'. rewrite lookup_entry. destruct (tident_eq_dec t t); [|congruence]. now rewrite (W3 _ _ Ly). }
      split; [|split; [reflexivity|]].
      + intros k ty' Lk'. rewrite Lk; [|intros ->; congruence]. apply W3, W1. exact Lk'.
      + intros w. unfold allows_children. cbn [cx_content set_content]. set (x2 := ComplexMeta _ _ _ _ _ _ _).
        rewrite (once_accepts ts' t t x2 w eq_refl eq_refl).
        2:{ destruct O as (O1 & O2). unfold occurs_once, x2. cbn. rewrite O1, O2. split; reflexivity. }
        rewrite (accepts_composed ts' t ty2 CSequence (GroupMeta mixed (h :: tl)) w Lc (finished_variant _)). cbn [gr_elements].
        pose proof (proj2 (proj2 (shown_keeps groups (present st1) _ _ Kp)) _ _ All) as S3.
        pose proof (proj2 (proj2 (shown_meaning groups (present st1) ts')) _ _ S3) as Q.
        rewrite (says_made _ _ _ _ _ w M). rewrite <- (composed_iff _ _ CSequence _ _ Q w). split.
        * intros H. exists 1. split; [split; cbn; lia|]. rewrite <- (app_nil_r w). constructor; [exact H|constructor].
        * intros (n & (Wa & Wb) & Tm). cbn in Wb. destruct (times_few _ _ _ Tm Wb) as [(E0 & _)|(_ & H)]; [lia|exact H].
  Qed.
End Derive.

(** ** The processing ends, and without errors *)

Section Ends.
  Variable groups : tident -> option (compositor * list particle).
  Variable ns : nat.
  Variable field_name : nat -> option tident -> name.
  Variable type_name : nat -> tident.
  Variable finished : variant -> mtype.
  Variable mixed : bool.
  Notation step := (apply_particle groups ns field_name type_name finished mixed).
  Notation fill fuel := (apply_particles (step fuel)).

  Lemma tidy_ind' (P : particle -> Prop) :
    (forall id t f mn mx nl, P (PElement id t f mn mx nl)) -> (forall id a mn mx, P (PAny id a mn mx)) ->
    (forall c mn mx ps, Forall P ps -> P (PGroup c mn mx ps)) ->
    (forall g c mn mx ps, groups g = Some (c, ps) -> Forall P ps -> P (PGroupRef g mn mx)) ->
    forall p, tidy groups p -> P p.
  Proof.
    intros He Ha Hg Hr. fix IH 2. intros p T. destruct T as [| |c mn mx ps NE ND F|g c mn mx ps Eg NE ND F].
    - apply He.
    - apply Ha.
    - apply Hg. clear NE ND. revert ps F. fix all 2. intros ps F. destruct F; constructor; auto.
    - apply (Hr g c mn mx ps Eg). clear Eg NE ND. revert ps F. fix all 2. intros ps F. destruct F; constructor; auto.
  Qed.

  Definition ends (p : particle) : Prop := exists f0, forall fuel, f0 <= fuel -> forall st es, step fuel st es p <> None.

  Lemma all_end ps : Forall ends ps -> exists f0, forall fuel, f0 <= fuel -> forall st es, fill fuel st es ps <> None.
  Proof.
    induction 1 as [|p ps (f1 & H1) F (f2 & H2)].
    - exists 0. discriminate.
    - exists (f1 + f2). intros fuel Hf st es. cbn. assert (E1 : f1 <= fuel) by lia. assert (E2 : f2 <= fuel) by lia.
      specialize (H1 fuel E1 st es). destruct (step fuel st es p) as [[[st1 es1]| |]|]; try discriminate; [|congruence].
      now apply H2.
  Qed.

  Lemma nested_ends fuel r c mn mx ps : (forall st es, fill fuel st es ps <> None) -> forall st es,
    nested_group ns field_name type_name finished mixed (fill fuel) st es r c mn mx ps <> None.
  Proof.
    intros H st es. unfold nested_group. destruct (cached (count_name st) r); [discriminate|].
    specialize (H (count_name st) []). destruct (fill fuel (count_name st) [] ps) as [[[st1 [|]]| |]|]; try discriminate. congruence.
  Qed.

  Lemma tidy_ends p : tidy groups p -> ends p.
  Proof.
    revert p. apply tidy_ind'.
    - intros. exists 1. intros fuel Hf st es. destruct fuel; [lia|]. discriminate.
    - intros. exists 1. intros fuel Hf st es. destruct fuel; [lia|]. discriminate.
    - intros c mn mx ps F. destruct (all_end ps F) as (f0 & H). exists (S f0). intros fuel Hf st es. destruct fuel as [|fuel]; [lia|].
      cbn [apply_particle]. apply nested_ends. apply H. lia.
    - intros g c mn mx ps Eg F. destruct (all_end ps F) as (f0 & H). exists (S f0). intros fuel Hf st es. destruct fuel as [|fuel]; [lia|].
      cbn [apply_particle]. rewrite Eg. apply nested_ends. apply H. lia.
  Qed.

  Lemma interpret_ends p : tidy groups p -> exists f0, forall fuel, f0 <= fuel -> forall st,
    interpret groups ns field_name type_name finished mixed fuel st p <> None.
  Proof.
    assert (K : forall fuel st r c mn mx ps, (forall st es, fill fuel st es ps <> None) ->
      complex_group groups ns field_name type_name finished mixed fuel st (complex_default mixed) r c mn mx ps <> None).
    { intros fuel st r c mn mx ps H. unfold complex_group. cbn [complex_default cx_content]. destruct (cached (count_name st) r); [discriminate|].
      specialize (H (count_name st) []). destruct (fill fuel (count_name st) [] ps) as [[[st1 [|]]| |]|]; try discriminate. congruence. }
    intros T. destruct T as [| |c mn mx ps NE ND F|g c mn mx ps Eg NE ND F].
    - exists 0. discriminate.
    - exists 0. discriminate.
    - destruct (all_end ps) as (f0 & H); [now apply (Forall_impl _ tidy_ends)|]. exists f0. intros fuel Hf st. apply K. now apply H.
    - destruct (all_end ps) as (f0 & H); [now apply (Forall_impl _ tidy_ends)|]. exists f0. intros fuel Hf st. unfold interpret, apply_content. rewrite Eg. apply K. now apply H.
  Qed.

  Hypothesis type_name_inj : forall a b, type_name a = type_name b -> a = b.

  Notation new_names := (new_names type_name).
  Definition only_adds (st st' : istate) : Prop := s_next st <= s_next st' /\
    forall i, lookup i (s_types st') <> None -> lookup i (s_types st) <> None \/ exists k, s_next st <= k < s_next st' /\ i = type_name k.

  Lemma adds_refl st : only_adds st st.
  Proof. split; [lia|]. auto. Qed.
  Lemma adds_trans a b c : only_adds a b -> only_adds b c -> only_adds a c.
  Proof.
    intros (L1 & H1) (L2 & H2). split; [lia|]. intros i H. destruct (H2 i H) as [H'|(k & K & E)].
    - destruct (H1 i H') as [H''|(k & K & E)]; [now left|]. right. exists k. split; [lia|exact E].
    - right. exists k. split; [lia|exact E].
  Qed.
  Lemma adds_new a b : new_names a -> only_adds a b -> new_names b.
  Proof.
    intros N (L & H) n Hn. destruct (lookup (type_name n) (s_types b)) eqn:E; [|reflexivity]. exfalso.
    destruct (H (type_name n)) as [H'|(k & K & E')]; [congruence|apply H'; apply N; lia|]. apply type_name_inj in E'. lia.
  Qed.

  Definition fine {A} (st : istate) (r : option (outcome content_error (istate * A))) : Prop :=
    match r with
    | Some (Ok (st', _)) => only_adds st st'
    | Some (Err _) => False
    | _ => True
    end.

  Lemma fill_fine f ps : (forall st es p, new_names st -> fine st (f st es p)) -> forall st es, new_names st -> fine st (apply_particles f st es ps).
  Proof.
    intros Hf. induction ps as [|p ps IH]; intros st es N; cbn; [apply adds_refl|].
    specialize (Hf st es p N). destruct (f st es p) as [[[st1 es1]| |]|]; auto.
    specialize (IH st1 es1 (adds_new _ _ N Hf)). destruct (apply_particles f st1 es1 ps) as [[[st2 es2]| |]|]; auto.
    exact (adds_trans _ _ _ Hf IH).
  Qed.

  (** The type of a group is added under the name made before its parts were processed. *)
  Lemma output_fine c o st st1 : new_names st -> only_adds (count_name st) st1 ->
    match add_output finished c o (type_name (s_next st)) st1 with
    | Ok (st2, _) => only_adds st st2
    | Err _ => False
    | Panic => True
    end.
  Proof.
    intros N (L & H). assert (A : only_adds st st1).
    { cbn in L, H. split; [lia|]. intros i Hi. destruct (H i Hi) as [H'|(k & K & E)]; [now left|]. right. exists k. split; [lia|exact E]. }
    destruct o as [g|t]; cbn; [|exact A].
    unfold add_type. destruct (lookup (type_name (s_next st)) (s_types st1)) eqn:E.
    - destruct (H (type_name (s_next st))) as [H'|(k & K & E')]; [congruence|apply H'; apply N; lia|]. apply type_name_inj in E'. cbn in K. lia.
    - cbn. split; [exact (proj1 A)|]. intros i. cbn. rewrite lookup_snoc. destruct (lookup i (s_types st1)) eqn:Ei.
      + intros _. apply (proj2 A). congruence.
      + destruct (tident_eq_dec i (type_name (s_next st))) as [->|]; [|congruence]. intros _. right. exists (s_next st). cbn in L. split; [lia|reflexivity].
  Qed.

  Lemma remember_adds st st' r b t : only_adds st st' -> only_adds st (remember r b t st').
  Proof. intros H. unfold remember. destruct r; [|exact H]. destruct b; exact H. Qed.

  Lemma count_new st : new_names st -> new_names (count_name st).
  Proof. intros N n Hn. cbn in *. apply N. lia. Qed.
  Lemma count_adds st st' : only_adds (count_name st) st' -> only_adds st st'.
  Proof.
    intros (L & H). cbn in L, H. split; [lia|]. intros i Hi. destruct (H i Hi) as [H'|(k & K & E)]; [now left|]. right. exists k. split; [lia|exact E].
  Qed.

  Lemma insert_no_error id f es e : insert_checked id f es <> Err e.
  Proof.
    unfold insert_checked. destruct (find_element id es) as [[[l1 x] l2]|]; [|discriminate].
    destruct (free_name doublings 1 id _); discriminate.
  Qed.

  Lemma nested_fine f st es r c mn mx ps : (forall st es p, new_names st -> fine st (f st es p)) -> new_names st ->
    fine st (nested_group ns field_name type_name finished mixed (apply_particles f) st es r c mn mx ps).
  Proof.
    intros Hf N. unfold nested_group.
    assert (FIN : forall st1 o b, only_adds (count_name st) st1 -> fine st (Some
      match add_output finished c o (type_name (s_next st)) st1 with
      | Ok (st', t') =>
          match insert_checked (PIdent ns (field_name (s_next st) r)) (group_element t' mn mx) es with
          | Ok es' => Ok (remember r b (type_name (s_next st)) st', es')
          | Err e => Err e
          | Panic => Panic
          end
      | Err e => Err e
      | Panic => Panic
      end)).
    { intros st1 o b A. pose proof (output_fine c o st st1 N A) as H. destruct (add_output finished c o (type_name (s_next st)) st1) as [[st2 t2]| |]; auto.
      destruct (insert_checked _ (group_element t2 mn mx) es) as [es'|e|] eqn:I; cbn; auto; [now apply remember_adds|]. now apply insert_no_error in I. }
    destruct (cached (count_name st) r); [apply FIN, adds_refl|].
    pose proof (fill_fine f ps Hf (count_name st) [] (count_new st N)) as H.
    destruct (apply_particles f (count_name st) [] ps) as [[[st1 [|e els]]| |]|]; [now apply count_adds|now apply FIN|exact H|exact I|exact I].
  Qed.

  Lemma particle_fine fuel : forall st es p, new_names st -> fine st (step fuel st es p).
  Proof.
    induction fuel as [|fuel IH]; intros st es p N; cbn [apply_particle]; [exact I|].
    destruct p as [id t f mn mx nl|id a mn mx|c mn mx ps|g mn mx].
    - unfold apply_element. destruct (find_element id es) as [[[l1 x] l2]|]; [|apply adds_refl].
      destruct (el_variant x) as [| |t' []]; cbn; auto. apply adds_refl.
    - apply adds_refl.
    - now apply nested_fine.
    - destruct (groups g) as [[c ps]|]; [|exact I]. now apply nested_fine.
  Qed.

  Lemma interpret_fine fuel st p e : new_names st -> interpret groups ns field_name type_name finished mixed fuel st p <> Some (Err e).
  Proof.
    intros N H. assert (K : forall r c mn mx ps, complex_group groups ns field_name type_name finished mixed fuel st (complex_default mixed) r c mn mx ps <> Some (Err e)).
    { intros r c mn mx ps. unfold complex_group. cbn [complex_default cx_content].
      assert (FIN : forall st1 o (b : bool), only_adds (count_name st) st1 -> Some
        match add_output finished c o (type_name (s_next st)) st1 with
        | Ok (st', t') => Ok (remember r b (type_name (s_next st)) st', set_content t' mn mx (complex_default mixed))
        | Err e => Err e
        | Panic => Panic
        end <> Some (Err e)).
      { intros st1 o b A. pose proof (output_fine c o st st1 N A) as Hf. destruct (add_output finished c o (type_name (s_next st)) st1) as [[st2 t2]| |]; try discriminate. destruct Hf. }
      destruct (cached (count_name st) r); [apply FIN, adds_refl|].
      pose proof (fill_fine _ ps (particle_fine fuel) (count_name st) [] (count_new st N)) as Hf.
      destruct (fill fuel (count_name st) [] ps) as [[[st1 [|e1 els]]| |]|]; try discriminate; [now apply FIN|destruct Hf]. }
    unfold interpret, apply_content in H. destruct p as [| |c mn mx ps|g mn mx]; try discriminate; [now apply K in H|].
    destruct (groups g) as [[c ps]|]; [|discriminate]. now apply K in H.
  Qed.
End Ends.

(** ** Identifiers *)

Lemma some_inj {A} (a b : A) : Some a = Some b -> a = b.
Proof. congruence. Qed.

Section Distinct.
  Variable groups : tident -> option (compositor * list particle).
  Variable ns : nat.
  Variable field_name : nat -> option tident -> name.
  Variable type_name : nat -> tident.
  Variable finished : variant -> mtype.
  Variable mixed : bool.
  Hypothesis finished_variant : forall v, m_variant (finished v) = v.
  Hypothesis ns_known : ns <> 0.
  Notation step := (apply_particle groups ns field_name type_name finished mixed).
  Notation fill fuel := (apply_particles (step fuel)).

  Definition names_after (p : particle) (es es' : list element_meta) : Prop :=
    NoDup (map el_ident es') /\ exists l, map el_ident es' = map el_ident es ++ l /\ forall i, In i l -> In i (any_names [p]) \/ pi_ns i <> 0.

  Definition names_step (f : istate -> list element_meta -> particle -> result) : Prop :=
    forall st es p st' es', apart groups p -> distinct_members (s_types st) -> NoDup (map el_ident es) ->
      (forall id, In id (any_names [p]) -> ~ In id (map el_ident es)) -> f st es p = Some (Ok (st', es')) ->
      distinct_members (s_types st') /\ names_after p es es'.

  Lemma nodup_snoc {A} (l : list A) a : NoDup l -> ~ In a l -> NoDup (l ++ [a]).
  Proof.
    induction 1 as [|b l Nb N IH]; intros H; cbn; [constructor; auto; constructor|]. constructor.
    - intros I. apply in_app_or in I. destruct I as [I|[->|[]]]; [auto|]. apply H. now left.
    - apply IH. intros I. apply H. now right.
  Qed.

  Lemma fill_names f ps : names_step f -> forall st es st' es', Forall (apart groups) ps -> NoDup (any_names ps) -> distinct_members (s_types st) ->
    NoDup (map el_ident es) -> (forall id, In id (any_names ps) -> ~ In id (map el_ident es)) ->
    apply_particles f st es ps = Some (Ok (st', es')) ->
    distinct_members (s_types st') /\ NoDup (map el_ident es') /\ exists l, map el_ident es' = map el_ident es ++ l.
  Proof.
    intros Hf. induction ps as [|p ps IH]; intros st es st' es' A NA D N F; cbn.
    - intros [= <- <-]. split; [exact D|]. split; [exact N|]. exists []. now rewrite app_nil_r.
    - destruct (f st es p) as [[[st1 es1]| |]|] eqn:E; try discriminate. intros H. inversion A as [|p' ps' Ap Aps]; subst p' ps'.
      assert (EN : any_names (p :: ps) = any_names [p] ++ any_names ps) by (unfold any_names; cbn; now rewrite app_nil_r).
      rewrite EN in NA, F.
      destruct (Hf st es p st1 es1 Ap D N) as (D1 & N1 & l & El & Hl); auto.
      { intros id I. apply F. apply in_or_app. now left. }
      assert (Hz : forall id, In id (any_names ps) -> pi_ns id = 0).
      { intros id I. unfold any_names in I. apply in_flat_map in I. destruct I as (q & Iq & I). rewrite Forall_forall in Aps. specialize (Aps q Iq).
        destruct q; cbn in I; try destruct I as [<-|[]]; try destruct I. now inversion Aps. }
      destruct (IH st1 es1 st' es' Aps (nodup_r _ _ NA) D1 N1) as (D2 & N2 & l2 & E2); auto.
      { intros id I. rewrite El. intros I'. apply in_app_or in I'. destruct I' as [I'|I'].
        - apply (F id); [apply in_or_app; now right|exact I'].
        - destruct (Hl id I') as [I2|Hn]; [|now apply Hn, Hz]. clear - NA I I2. induction (any_names [p]) as [|x k IHk]; [destruct I2|].
          cbn in NA. inversion NA as [|y k' Nx Nk]; subst. destruct I2 as [->|I2]; [|now apply IHk]. apply Nx. apply in_or_app. now right. }
      split; [exact D2|]. split; [exact N2|]. exists (l ++ l2). now rewrite E2, El, app_assoc.
  Qed.

  Lemma members_add st i ty st' : distinct_members (s_types st) ->
    (forall m g, group_of (m_variant ty) = Some (m, g) -> NoDup (map el_ident (gr_elements g))) ->
    add_type i ty false st = Ok st' -> distinct_members (s_types st').
  Proof.
    intros D H. unfold add_type. destruct (lookup i (s_types st)) eqn:L; [discriminate|]. intros [= <-] j ty' m g. cbn. rewrite lookup_snoc.
    destruct (lookup j (s_types st)) as [tj|] eqn:Lj.
    - intros [= <-] G. now apply (D j tj m g).
    - destruct (tident_eq_dec j i); [|discriminate]. intros [= <-]. apply H.
  Qed.

  Lemma group_compose c g : group_of (compose c g) = Some (match c with CAll => GAll | CChoice => GChoice | CSequence => GSequence end, g).
  Proof. destruct c; reflexivity. Qed.

  Lemma output_members c o t st st' t' : distinct_members (s_types st) ->
    match o with OutType g => NoDup (map el_ident (gr_elements g)) | OutCached _ => True end ->
    add_output finished c o t st = Ok (st', t') -> distinct_members (s_types st').
  Proof.
    intros D H. unfold add_output. destruct o as [g|tc].
    - destruct (add_type t (finished (compose c g)) false st) as [st1| |] eqn:A; try discriminate. intros [= <- <-].
      apply (members_add st t (finished (compose c g)) st1 D); [|exact A]. intros m g'. rewrite finished_variant, group_compose. intros [= _ <-]. exact H.
    - now intros [= <- <-].
  Qed.

  Lemma remember_types r b t st : s_types (remember r b t st) = s_types st.
  Proof. unfold remember. destruct r; [destruct b; reflexivity|reflexivity]. Qed.

  Lemma names_same p es : NoDup (map el_ident es) -> names_after p es es.
  Proof. intros N. split; [exact N|]. exists []. rewrite app_nil_r. split; [reflexivity|intros i []]. Qed.

  Lemma nested_names f st es r c mn mx ps st' es' p : names_step f -> Forall (apart groups) ps -> NoDup (any_names ps) ->
    distinct_members (s_types st) -> NoDup (map el_ident es) ->
    nested_group ns field_name type_name finished mixed (apply_particles f) st es r c mn mx ps = Some (Ok (st', es')) ->
    distinct_members (s_types st') /\ names_after p es es'.
  Proof.
    intros Hf A NA D N. unfold nested_group.
    assert (FIN : forall st1 o b t1, distinct_members (s_types st1) -> match o with OutType g => NoDup (map el_ident (gr_elements g)) | OutCached _ => True end ->
      match add_output finished c o (type_name (s_next st)) st1 with
      | Ok (st', t') =>
          match insert_checked (PIdent ns (field_name (s_next st) r)) (group_element t' mn mx) es with
          | Ok es' => Ok (remember r b (type_name (s_next st)) st', es')
          | Err e => Err e
          | Panic => Panic
          end
      | Err e => Err e
      | Panic => Panic
      end = Ok t1 -> distinct_members (s_types (fst t1)) /\ names_after p es (snd t1)).
    { intros st1 o b t1 D1 Ho. destruct (add_output finished c o _ st1) as [[st2 t2]| |] eqn:Ao; try discriminate.
      pose proof (output_members _ _ _ _ _ _ D1 Ho Ao) as D2.
      destruct (insert_checked _ (group_element t2 mn mx) es) as [es2| |] eqn:I; try discriminate. intros [= <-]. cbn [fst snd].
      rewrite remember_types. split; [exact D2|].
      destruct (insert_adds _ (group_element t2 mn mx) es es2 (fun i => eq_refl) I) as (es1 & i & -> & R & Ni & Hns).
      unfold names_after. rewrite map_app, (renamed_idents _ _ R). cbn. split; [now apply nodup_snoc|]. exists [i]. split; [reflexivity|].
      intros j [<-|[]]. right. rewrite Hns. exact ns_known. }
    destruct (cached (count_name st) r) as [t'|].
    - intros [= H]. exact (FIN (count_name st) (OutCached t') true (st', es') D Logic.I H).
    - destruct (apply_particles f (count_name st) [] ps) as [[[st1 els]| |]|] eqn:F; try discriminate.
      destruct (fill_names f ps Hf (count_name st) [] st1 els A NA D (NoDup_nil _)) as (D1 & N1 & _); auto.
      destruct els as [|e els].
      + intros [= <- <-]. split; [exact D1|now apply names_same].
      + intros [= H]. exact (FIN st1 (OutType (GroupMeta mixed (e :: els))) false (st', es') D1 N1 H).
  Qed.

  Lemma particle_names fuel : names_step (step fuel).
  Proof.
    induction fuel as [|fuel IH]; intros st es p st' es' A D N F; cbn [apply_particle]; [discriminate|].
    destruct p as [id t f mn mx nl|id a mn mx|c mn mx ps|g mn mx].
    - unfold apply_element. destruct (find_element id es) as [[[l1 x] l2]|] eqn:E.
      + destruct (FlatProofs.find_some _ _ _ _ _ E) as (-> & Ix). destruct (el_variant x) as [| |t' []]; try discriminate. intros [= <- <-].
        split; [exact D|]. unfold names_after. rewrite !map_app in *. cbn in *. split; [exact N|]. exists []. rewrite app_nil_r. split; [reflexivity|intros i []].
      + intros [= <- <-]. split; [exact D|]. unfold names_after. rewrite map_app. cbn. apply find_none in E. split; [now apply nodup_snoc|].
        exists [id]. split; [reflexivity|]. intros j [<-|[]]. right. now inversion A.
    - intros [= <- <-]. split; [exact D|]. destruct (any_adds id a mn mx es) as (es1 & e & -> & R & Ei & _).
      unfold names_after. rewrite map_app, (renamed_idents _ _ R). cbn. rewrite Ei. split; [apply nodup_snoc; auto|].
      + apply F. now left.
      + exists [id]. split; [reflexivity|]. intros j [<-|[]]. left. now left.
    - inversion A; subst. intros H. eapply nested_names; eauto.
    - inversion A as [| | |g' c mn' mx' ps Eg NA AP]; subst. rewrite Eg. intros H. eapply nested_names; eauto.
  Qed.

  Lemma insertions_ok fuel ps st es st' es' : Forall (apart groups) ps -> NoDup (any_names ps) -> distinct_members (s_types st) ->
    NoDup (map el_ident es) -> (forall id, In id (any_names ps) -> ~ In id (map el_ident es)) ->
    fill fuel st es ps = Some (Ok (st', es')) ->
    distinct_members (s_types st') /\ NoDup (map el_ident es') /\ exists l, map el_ident es' = map el_ident es ++ l.
  Proof. intros. eapply fill_names; eauto using particle_names. Qed.

  Lemma interpret_members fuel st p st' x : apart groups p -> distinct_members (s_types st) ->
    interpret groups ns field_name type_name finished mixed fuel st p = Some (Ok (st', x)) -> distinct_members (s_types st').
  Proof.
    intros A D. assert (K : forall r c mn mx ps, Forall (apart groups) ps -> NoDup (any_names ps) ->
      complex_group groups ns field_name type_name finished mixed fuel st (complex_default mixed) r c mn mx ps = Some (Ok (st', x)) -> distinct_members (s_types st')).
    { intros r c mn mx ps Ap NA. unfold complex_group. cbn [complex_default cx_content].
      assert (FIN : forall st1 o (b : bool), distinct_members (s_types st1) -> match o with OutType g => NoDup (map el_ident (gr_elements g)) | OutCached _ => True end ->
        match add_output finished c o (type_name (s_next st)) st1 with
        | Ok (st', t') => Ok (remember r b (type_name (s_next st)) st', set_content t' mn mx (complex_default mixed))
        | Err e => Err e
        | Panic => Panic
        end = Ok (st', x) -> distinct_members (s_types st')).
      { intros st1 o b D1 Ho. destruct (add_output finished c o _ st1) as [[st2 t2]| |] eqn:Ao; try discriminate. intros [= <- _].
        rewrite remember_types. exact (output_members _ _ _ _ _ _ D1 Ho Ao). }
      destruct (cached (count_name st) r) as [t'|].
      - intros H. exact (FIN (count_name st) (OutCached t') true D Logic.I (some_inj _ _ H)).
      - destruct (fill fuel (count_name st) [] ps) as [[[st1 els]| |]|] eqn:F; try discriminate.
        destruct (insertions_ok fuel ps (count_name st) [] st1 els Ap NA D (NoDup_nil _)) as (D1 & N1 & _); auto.
        destruct els as [|e els]; [now intros [= <- _]|]. intros H. exact (FIN st1 (OutType (GroupMeta mixed (e :: els))) false D1 N1 (some_inj _ _ H)). }
    unfold interpret, apply_content. destruct p as [| |c mn mx ps|g mn mx]; try discriminate.
    - inversion A; subst. now apply K.
    - inversion A as [| | |g' c mn' mx' ps Eg NA AP]; subst. rewrite Eg. now apply K.
  Qed.
End Distinct.

(** ** Display names *)

Section Display.
  Variable prefix : nat -> option string.
  Notation text e := (name_str (pi_name (el_ident e))).
  Notation key e := (pi_ns (el_ident e), name_str (pi_name (el_ident e))).

  Definition same_text (i e : element_meta) : bool := if string_dec (text i) (text e) then true else false.
  Definition qualify (e : element_meta) : element_meta := set_display (ns_display prefix (el_ident e)) e.

  Lemma rename_rest_map x n es : (forall e, In e es -> key e <> key x) ->
    rename_rest prefix (el_ident x) n es = (existsb (same_text x) es, map (fun e => if same_text x e then qualify e else e) es).
  Proof.
    intros H. revert n. induction es as [|e es IH]; intros n; cbn; [reflexivity|]. unfold same_text at 1 3.
    destruct (string_dec (text x) (text e)) as [E|E].
    - destruct (Nat.eqb_spec (pi_ns (el_ident x)) (pi_ns (el_ident e))) as [En|En].
      + exfalso. apply (H e); [now left|]. now rewrite En, E.
      + rewrite IH by (intros e' I; apply H; now right). reflexivity.
    - rewrite IH by (intros e' I; apply H; now right). reflexivity.
  Qed.

  Lemma qualify_twice e : qualify (qualify e) = qualify e.
  Proof. reflexivity. Qed.

  Lemma conflicts_ok : forall es, told_apart es ->
    Forall2 (fun e e' => (namesake es e -> e' = qualify e) /\ (~ namesake es e -> e' = e)) es (fix_naming_conflicts prefix es).
  Proof.
    (* [seen] renames elements that have a namesake before the list *)
    assert (G : forall es, told_apart es -> forall done fuel, length es <= fuel ->
      Forall2 (fun e e' => (existsb (same_text e) done = true \/ namesake es e -> e' = qualify e) /\ (existsb (same_text e) done = false /\ ~ namesake es e -> e' = e))
        es (fix_conflicts prefix fuel (map (fun e => if existsb (same_text e) done then qualify e else e) es))).
    { induction es as [|e es IH]; intros T done fuel Hf; [destruct fuel; constructor|]. cbn in Hf. destruct fuel as [|fuel]; [lia|].
      inversion T as [|k l Nk Tl]; subst. set (u := fun e0 => if existsb (same_text e0) done then qualify e0 else e0). cbn [map fix_conflicts].
      assert (Ui : forall a, el_ident (u a) = el_ident a) by (intros a; unfold u; destruct (existsb (same_text a) done); reflexivity).
      rewrite (rename_rest_map (u e) 2 (map u es)).
      2:{ intros a Ia. apply in_map_iff in Ia. destruct Ia as (b & <- & Ib). rewrite !Ui. intros E. apply Nk. rewrite <- E. now apply (in_map (fun e => key e)). }
      cbn [fst snd].
      assert (Eb : existsb (same_text (u e)) (map u es) = existsb (same_text e) es).
      { clear - Ui. induction es as [|a es IHe]; cbn; [reflexivity|]. rewrite IHe. unfold same_text. now rewrite !Ui. }
      rewrite Eb. rewrite map_map.
      assert (Em : map (fun x => if same_text (u e) (u x) then qualify (u x) else u x) es = map (fun x => if existsb (same_text x) (e :: done) then qualify x else x) es).
      { apply map_ext. intros a. cbn. unfold same_text at 1. rewrite !Ui. unfold same_text at 1.
        destruct (string_dec (text e) (text a)) as [E1|E1]; destruct (string_dec (text a) (text e)) as [E2|E2]; try congruence; cbn.
        - unfold u. destruct (existsb (same_text a) done); reflexivity.
        - reflexivity. }
      rewrite Em.
      assert (Head : namesake (e :: es) e <-> existsb (same_text e) es = true).
      { split.
        - intros (e' & [<-|I] & N & E); [congruence|]. apply existsb_exists. exists e'. split; [exact I|]. unfold same_text. destruct (string_dec (text e) (text e')); congruence.
        - intros H. apply existsb_exists in H. destruct H as (e' & I & E). exists e'. split; [now right|]. unfold same_text in E. destruct (string_dec (text e) (text e')) as [E'|]; [|discriminate].
          split; [|congruence]. intros Ei. apply Nk. rewrite <- Ei. now apply (in_map (fun e => key e)). }
      constructor.
      - split.
        + intros [Hd|Hn]; [|apply Head in Hn; rewrite Hn]; unfold u.
          * rewrite Hd. destruct (existsb (same_text e) es); reflexivity.
          * destruct (existsb (same_text e) done); reflexivity.
        + intros (Hd & Hn). destruct (existsb (same_text e) es) eqn:Ex; [exfalso; apply Hn, Head; reflexivity|]. unfold u. now rewrite Hd.
      - assert (Fl : length es <= fuel) by lia.
        assert (Tail : forall a, In a es -> (namesake (e :: es) a <-> same_text a e = true \/ namesake es a)).
        { intros a Ia. split.
          - intros (e' & [<-|I] & N & E).
            + left. unfold same_text. destruct (string_dec (text a) (text e)); congruence.
            + right. exists e'. auto.
          - intros [E|(e' & I & N & E)].
            + exists e. split; [now left|]. unfold same_text in E. destruct (string_dec (text a) (text e)) as [E'|]; [|discriminate]. split; [|congruence].
              intros Ei. apply Nk. rewrite Ei. now apply (in_map (fun e => key e)).
            + exists e'. split; [now right|]. auto. }
        specialize (IH Tl (e :: done) fuel Fl).
        assert (All : forall a, In a es -> In a es) by auto. revert All Tail IH. generalize (fix_conflicts prefix fuel (map (fun x => if existsb (same_text x) (e :: done) then qualify x else x) es)).
        intros out All Tail IH. revert All Tail.
        assert (Q : forall sub out, Forall2 (fun e0 e' => (existsb (same_text e0) (e :: done) = true \/ namesake es e0 -> e' = qualify e0) /\
            (existsb (same_text e0) (e :: done) = false /\ ~ namesake es e0 -> e' = e0)) sub out ->
          (forall a, In a sub -> namesake (e :: es) a <-> same_text a e = true \/ namesake es a) ->
          Forall2 (fun e0 e' => (existsb (same_text e0) done = true \/ namesake (e :: es) e0 -> e' = qualify e0) /\
            (existsb (same_text e0) done = false /\ ~ namesake (e :: es) e0 -> e' = e0)) sub out).
        { clear. induction 1 as [|a b sub out (H1 & H2) F IHF]; intros Tl; constructor.
          - specialize (Tl a (or_introl eq_refl)). cbn in H1, H2. split.
            + intros [Hd|Hn]; apply H1; [left; rewrite Hd; apply Bool.orb_true_r|]. apply Tl in Hn. destruct Hn as [E|Hn]; [left; now rewrite E|now right].
            + intros (Hd & Hn). apply H2. rewrite Hd. destruct (same_text a e) eqn:E; [exfalso; apply Hn, Tl; now left|].
              split; [reflexivity|]. intros Hs. apply Hn, Tl. now right.
          - apply IHF. intros c Ic. apply Tl. now right. }
        intros _ Tail. now apply Q. }
    intros es T. specialize (G es T [] (length es) (le_n _)). cbn in G. rewrite map_id in G.
    change (fix_conflicts prefix (length es) es) with (fix_naming_conflicts prefix es) in G.
    revert G. generalize (namesake es), (fix_naming_conflicts prefix es). intros P out G. clear T. induction G as [|a b l l' (H1 & H2) F IH]; constructor; [split; auto|exact IH].
  Qed.
End Display.

Lemma text_length (p s : string) : String.length (p ++ s)%string = String.length p + String.length s.
Proof. induction p as [|c p IH]; cbn; auto. Qed.

Lemma app_text_inj (p q s : string) : (p ++ s)%string = (q ++ s)%string -> p = q.
Proof.
  revert q. induction p as [|c p IH]; intros [|d q] H; cbn in H; auto.
  - exfalso. apply (f_equal String.length) in H. cbn in H. rewrite text_length in H. lia.
  - exfalso. apply (f_equal String.length) in H. cbn in H. rewrite text_length in H. lia.
  - injection H as -> H. f_equal. now apply IH.
Qed.

Lemma namesake_dec es e : {namesake es e} + {~ namesake es e}.
Proof.
  assert (D : forall e', {el_ident e' <> el_ident e /\ name_str (pi_name (el_ident e')) = name_str (pi_name (el_ident e))} +
    {~ (el_ident e' <> el_ident e /\ name_str (pi_name (el_ident e')) = name_str (pi_name (el_ident e)))}).
  { intros e'. destruct (pident_eq_dec (el_ident e') (el_ident e)); [right; tauto|].
    destruct (string_dec (name_str (pi_name (el_ident e'))) (name_str (pi_name (el_ident e)))); [left|right]; tauto. }
  destruct (Exists_dec _ es D) as [H|H]; [left|right].
  - apply Exists_exists in H. exact H.
  - intros N. apply H. apply Exists_exists. exact N.
Qed.

Lemma display_distinct prefix es a b ea eb : told_apart es ->
  nth_error (fix_naming_conflicts prefix es) a = Some ea -> nth_error (fix_naming_conflicts prefix es) b = Some eb -> a <> b ->
  name_str (pi_name (el_ident ea)) = name_str (pi_name (el_ident eb)) ->
  (forall n, In n (map (fun e => pi_ns (el_ident e)) es) -> prefix n <> None) ->
  (forall n n', In n (map (fun e => pi_ns (el_ident e)) es) -> In n' (map (fun e => pi_ns (el_ident e)) es) -> prefix n = prefix n' -> n = n') ->
  member_name ea <> member_name eb.
Proof.
  intros T Na Nb Ne Et Pk Pi.
  assert (F : forall P l l', Forall2 P l l' -> forall i (e' : element_meta), nth_error l' i = Some e' -> exists e : element_meta, nth_error l i = Some e /\ P e e').
  { induction 1 as [|x y l l' Hxy HF IH]; intros i e' H; destruct i; cbn in *; try discriminate; [injection H as <-; eauto|eauto]. }
  pose proof (conflicts_ok prefix es T) as C.
  destruct (F _ _ _ C a ea Na) as (xa & Xa & Ha). destruct (F _ _ _ C b eb Nb) as (xb & Xb & Hb).
  assert (Id : forall x y : element_meta, (namesake es x -> y = qualify prefix x) /\ (~ namesake es x -> y = x) -> el_ident y = el_ident x).
  { intros x y (H1 & H2). destruct (namesake_dec es x) as [D|D]; [rewrite (H1 D)|rewrite (H2 D)]; reflexivity. }
  rewrite (Id _ _ Ha), (Id _ _ Hb) in Et.
  assert (Nn : pi_ns (el_ident xa) <> pi_ns (el_ident xb)).
  { intros E. apply Ne. unfold told_apart in T. rewrite NoDup_nth_error in T. apply T.
    - rewrite map_length. apply nth_error_Some. congruence.
    - erewrite !map_nth_error by eassumption. now rewrite E, Et. }
  apply nth_error_In in Xa, Xb.
  assert (Sa : namesake es xa) by (exists xb; repeat split; auto; congruence).
  assert (Sb : namesake es xb) by (exists xa; repeat split; auto; congruence).
  rewrite (proj1 Ha Sa), (proj1 Hb Sb). unfold member_name, qualify, ns_display. cbn.
  pose proof (in_map (fun e => pi_ns (el_ident e)) es xa Xa) as Ia. pose proof (in_map (fun e => pi_ns (el_ident e)) es xb Xb) as Ib. cbn in Ia, Ib.
  pose proof (Pi _ _ Ia Ib) as Q. pose proof (Pk _ Ia) as Ka. pose proof (Pk _ Ib) as Kb.
  destruct (prefix (pi_ns (el_ident xa))) as [p|]; [|congruence]. destruct (prefix (pi_ns (el_ident xb))) as [q|]; [|congruence]. cbn.
  intros E. rewrite Et in E. apply app_text_inj in E. subst q. now apply Nn, Q.
Qed.
