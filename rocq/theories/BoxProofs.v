(** Proofs about the generator. *)
From Coq Require Import Lia.
From Verif Require Import BoxSpec.

(** * Lists *)
Lemma within_nil_l {A} (l : list A) : within [] l.
Proof. induction l; constructor; auto. Qed.

Lemma within_in {A} (a l : list A) x : within a l -> In x a -> In x l.
Proof. induction 1; cbn; intuition. Qed.

Lemma within_refl {A} (l : list A) : within l l.
Proof. induction l; [constructor|apply within_take; auto]. Qed.

Ltac wi := first [solve [constructor; auto]|solve [apply within_take; auto]|solve [apply within_skip; auto]].

Lemma within_app_l {A} (l r a : list A) : within a r -> within a (l ++ r).
Proof. induction l; cbn; [auto|]. constructor; auto. Qed.

Lemma within_app_r {A} (l r a : list A) : within a l -> within a (l ++ r).
Proof. induction 1; cbn; [apply within_nil_l|constructor 2; auto|constructor 3; auto]. Qed.

(** Part of a list with one more entry at its end. *)
Lemma within_snoc {A} (a l : list A) t :
  within a (l ++ [t]) -> within a l \/ exists a', a = a' ++ [t] /\ within a' l.
Proof.
  revert a; induction l as [|x l IH]; cbn; intros a W.
  - inversion W; subst.
    + inversion H1; subst. left; constructor.
    + inversion H1; subst. right; exists []; split; [auto|constructor].
  - inversion W; subst.
    + destruct (IH _ H1) as [H|(a' & -> & H)].
      * left; wi.
      * right; exists a'; split; [auto|wi].
    + destruct (IH _ H1) as [H|(a' & -> & H)].
      * left; wi.
      * right; exists (x :: a'); split; [auto|wi].
Qed.

Lemma within_snoc_inv {A} (a l : list A) x :
  within (a ++ [x]) l -> NoDup l -> exists p q, l = p ++ x :: q /\ within a p.
Proof.
  revert a; induction l as [|y l IH]; intros a W N.
  - inversion W as [E| |]. destruct a; discriminate.
  - inversion N as [|? ? Ny Nl]; subst. inversion W as [|? ? ? W' E1 E2|? b ? W' E1 E2]; subst.
    + destruct (IH _ W' Nl) as (p & q & -> & Wp).
      exists (y :: p), q. split; [auto|wi].
    + destruct a as [|z a]; cbn in E1; injection E1 as -> E1.
      * exists [], l. split; [auto|constructor].
      * subst b. destruct (IH _ W' Nl) as (p & q & -> & Wp).
        exists (z :: p), q. split; [auto|wi].
Qed.

Lemma chain_mono (R Q : tident -> tident -> Prop) l z :
  (forall a b, In a l -> R a b -> Q a b) -> chain R l z -> chain Q l z.
Proof.
  induction l as [|a [|b l] IH]; cbn in *; intros H C; auto.
  destruct C as [C1 C2]. split; [apply H; auto|apply IH; auto].
Qed.

Lemma chain_app (R : tident -> tident -> Prop) l a m z :
  chain R (l ++ a :: m) z <-> chain R l a /\ chain R (a :: m) z.
Proof.
  induction l as [|x [|y l] IH].
  - cbn. tauto.
  - cbn [app]. change (chain R (x :: a :: m) z) with (R x a /\ chain R (a :: m) z). cbn. tauto.
  - cbn [app] in *.
    change (chain R (x :: y :: l ++ a :: m) z) with (R x y /\ chain R (y :: l ++ a :: m) z).
    change (chain R (x :: y :: l) a) with (R x y /\ chain R (y :: l) a).
    rewrite IH. tauto.
Qed.

Lemma chain_snoc (R : tident -> tident -> Prop) l m z : chain R (l ++ [m]) z <-> chain R l m /\ R m z.
Proof. rewrite chain_app. cbn. tauto. Qed.

(** A cycle can be read from any of its entries. *)
Lemma cycle_rotate (R : tident -> tident -> Prop) l m : cycle R (l ++ m) -> cycle R (m ++ l).
Proof.
  destruct l as [|a l], m as [|b m]; cbn; rewrite ?app_nil_r; auto.
  intros C.
  change (chain R ((a :: l) ++ b :: m) a) in C.
  change (chain R ((b :: m) ++ a :: l) b).
  rewrite chain_app in *. tauto.
Qed.

(** * The cache *)
Lemma contains_in i l : contains i l = true <-> In i l.
Proof.
  unfold contains. rewrite existsb_exists. split.
  - intros (j & I & E). destruct (tident_eq_dec i j); [subst; auto|discriminate].
  - intros I. exists i. split; auto. destruct (tident_eq_dec i i); [auto|congruence].
Qed.

Lemma lookup_app {V} i (l m : list (tident * V)) :
  lookup i (l ++ m) = match lookup i l with Some v => Some v | None => lookup i m end.
Proof. induction l as [|[j v] l IH]; cbn; [auto|]. destruct (tident_eq_dec i j); auto. Qed.

Lemma lookup_add c i r j :
  lookup j (map (fun p : tident * list tident => if tident_eq_dec (fst p) i then (fst p, snd p ++ r) else p) c) =
  match lookup j c with
  | Some v => Some (if tident_eq_dec j i then v ++ r else v)
  | None => None
  end.
Proof.
  induction c as [|[k v] c IH]; cbn; [auto|].
  destruct (tident_eq_dec k i); cbn; destruct (tident_eq_dec j k); subst; auto;
    destruct (tident_eq_dec _ _); congruence.
Qed.

Section Gen.
  Variables (ts : types) (flags : box_flags) (mentions : tident -> list tident).

  Definition known (i : tident) : Prop := lookup i ts <> None.

  (** What a step keeps and adds. *)
  Record grows (g g' : gen) : Prop := {
    gr_done : g_done g' = g_done g;
    gr_reach : forall j, incl (cached g j) (cached g' j);
    gr_cached : forall j, is_cached (g_cache g) j = true -> is_cached (g_cache g') j = true;
    gr_pending : exists new, g_pending g' = g_pending g ++ new /\ NoDup new /\
      (forall j, In j new -> is_cached (g_cache g) j = false /\ is_cached (g_cache g') j = true /\ known j);
    gr_only : forall j, is_cached (g_cache g') j = true -> is_cached (g_cache g) j = true \/ In j (g_pending g') }.

  Lemma grows_refl g : grows g g.
  Proof.
    split; auto.
    - intros j; apply incl_refl.
    - exists []. rewrite app_nil_r. split; [auto|split; [constructor|intros j []]].
  Qed.

  Lemma nodup_join {A} (l m : list A) : NoDup l -> NoDup m -> (forall x, In x l -> ~ In x m) -> NoDup (l ++ m).
  Proof.
    induction l; cbn; intros Nl Nm D; [auto|]. inversion Nl; subst. constructor.
    - rewrite in_app_iff. intros [H|H]; [auto|]. apply (D a); auto.
    - apply IHl; auto.
  Qed.

  Lemma grows_trans a b c : grows a b -> grows b c -> grows a c.
  Proof.
    intros [D1 R1 C1 (n1 & P1 & N1 & H1) O1] [D2 R2 C2 (n2 & P2 & N2 & H2) O2]. split.
    - congruence.
    - intros j. eapply incl_tran; eauto.
    - auto.
    - exists (n1 ++ n2). rewrite P2, P1, app_assoc. split; [auto|split].
      + apply nodup_join; auto. intros x X1 X2. destruct (H1 _ X1) as (_ & T & _), (H2 _ X2) as (F & _). congruence.
      + intros j. rewrite in_app_iff. intros [J|J].
        * destruct (H1 _ J) as (F & T & K). auto.
        * destruct (H2 _ J) as (F & T & K). repeat split; auto.
          destruct (is_cached (g_cache a) j) eqn:E; [|auto]. rewrite (C1 _ E) in F. discriminate.
    - intros j J. destruct (O2 _ J) as [K|K]; auto.
      destruct (O1 _ K) as [L|L]; auto. right. rewrite P2, in_app_iff. auto.
  Qed.

  Lemma get_or_create_grows g i g' :
    get_or_create ts g i = Ok g' -> grows g g' /\ is_cached (g_cache g') i = true.
  Proof.
    unfold get_or_create. destruct (is_cached (g_cache g) i) eqn:C.
    - intros [= <-]. split; [apply grows_refl|auto].
    - destruct (lookup i ts) eqn:L; [|discriminate]. intros [= <-]. cbn.
      assert (T : is_cached (g_cache g ++ [(i, [])]) i = true).
      { unfold is_cached in *. rewrite lookup_app. destruct (lookup i (g_cache g)); [auto|]. cbn.
        destruct (tident_eq_dec i i); [auto|congruence]. }
      split; [|auto]. split; cbn; auto.
      + intros j. unfold cached; cbn. rewrite lookup_app. destruct (lookup j (g_cache g)); [apply incl_refl|intros x []].
      + intros j. unfold is_cached. rewrite lookup_app. destruct (lookup j (g_cache g)); [auto|discriminate].
      + exists [i]. split; [auto|split; [repeat constructor; auto|]].
        intros j [<-|[]]. repeat split; auto. unfold known. congruence.
      + intros j. unfold is_cached. rewrite lookup_app. destruct (lookup j (g_cache g)); [auto|]. cbn.
        destruct (tident_eq_dec j i); [|discriminate]. subst. intros _. right. rewrite in_app_iff. cbn; auto.
  Qed.

  Lemma add_grows g i r : grows g (add_reachable g i r).
  Proof.
    split; cbn; auto.
    - intros j x. unfold cached, add_reachable; cbn. rewrite lookup_add.
      destruct (lookup j (g_cache g)); [|auto]. destruct (tident_eq_dec j i); [|auto]. rewrite in_app_iff; auto.
    - intros j. unfold is_cached. rewrite lookup_add. destruct (lookup j (g_cache g)); auto.
    - exists []. rewrite app_nil_r. split; [auto|split; [constructor|intros j []]].
    - intros j. unfold is_cached. rewrite lookup_add. destruct (lookup j (g_cache g)); auto.
  Qed.

  Lemma add_has g i r : is_cached (g_cache g) i = true -> incl r (cached (add_reachable g i r) i).
  Proof.
    intros C x X. unfold cached, add_reachable; cbn. rewrite lookup_add. unfold is_cached in C.
    destruct (lookup i (g_cache g)); [|discriminate]. destruct (tident_eq_dec i i); [|congruence].
    rewrite in_app_iff; auto.
  Qed.

  (** * One request *)
  Definition wf_use (u : use) : Prop := us_element u = true -> us_ask u = AskElement (us_inline u).

  Lemma wf_uses v u : In u (uses ts flags v) -> wf_use u.
  Proof.
    assert (A : forall l u, In u (flat_map attribute_uses l) -> wf_use u).
    { intros l x X. apply in_flat_map in X. destruct X as (a & _ & X). unfold attribute_uses in X.
      destruct (at_use a), (at_variant a); cbn in X; destruct X as [<-|[]] || destruct X; intros Y; discriminate. }
    assert (B : forall force direct l u, In u (flat_map (element_uses force direct) l) -> wf_use u).
    { intros force direct l x X. apply in_flat_map in X. destruct X as (a & _ & X). unfold element_uses in X.
      destruct (from_occurs _ _), (el_variant a); cbn in X;
        try (destruct X as [<-|[]]); try contradiction; intros _; reflexivity. }
    assert (C : forall o l es u, In u (struct_uses flags o l es) -> wf_use u).
    { intros o l es x. unfold struct_uses. rewrite in_app_iff. intros [X|X]; eauto. }
    assert (D : forall o l es u, In u (choice_uses flags o l es) -> wf_use u).
    { intros o l es x. unfold choice_uses. rewrite in_app_iff. intros [X|X]; eauto. }
    destruct v; cbn; intros I; try contradiction; eauto.
    - apply in_map_iff in I. destruct I as (a & <- & _). intros Y; discriminate.
    - destruct I as [<-|[]]. intros Y; discriminate.
    - apply in_flat_map in I. destruct I as (a & _ & X). unfold variant_uses in X.
      destruct (ev_use a), (ev_type a); cbn in X; try (destruct X as [<-|[]]); try contradiction; intros Y; discriminate.
    - apply in_map_iff in I. destruct I as (a & <- & _). intros Y; discriminate.
    - unfold complex_uses in I. destruct (cx_content x); [|eauto].
      destruct (option_map _ _) as [[]|]; eauto; destruct I as [<-|I]; eauto; intros Y; discriminate.
    - destruct I as [<-|[]]. intros Y; discriminate.
  Qed.

  Lemma wf_all i u : In u (all_uses ts flags mentions i) -> wf_use u.
  Proof.
    unfold all_uses. rewrite in_app_iff. intros [H|H].
    - apply in_map_iff in H. destruct H as (a & <- & _). intros Y; discriminate.
    - destruct (lookup i ts); [eapply wf_uses; eauto|contradiction].
  Qed.

  (** A type that is reached already gets a box. *)
  Lemma need_box_reached fuel reach c i :
    known i -> is_cached c i = true -> In i reach -> need_box ts (S fuel) reach c i = Some true.
  Proof.
    intros K C I. cbn. unfold known in K. destruct (lookup i ts); [|congruence]. rewrite C.
    rewrite (proj2 (contains_in i reach) I). reflexivity.
  Qed.

  Definition field_ok (reach : list tident) (g g' : gen) (f : field) : Prop :=
    f_inline f = true -> f_element f = true ->
    incl reach (cached g' (f_target f)) /\
    ~ (known (f_target f) /\ is_cached (g_cache g) (f_target f) = true /\ In (f_target f) reach).

  Lemma do_use_spec reach g u g' f :
    wf_use u -> do_use ts reach g u = Ok (g', f) ->
    grows g g' /\ field_ok reach g g' f /\ f_target f = us_target u /\ is_cached (g_cache g') (us_target u) = true.
  Proof.
    intros W. unfold do_use. destruct (us_ask u) eqn:A.
    - destruct (get_or_create ts g (us_target u)) eqn:E; try discriminate. intros [= <- <-].
      destruct (get_or_create_grows _ _ _ E) as [G C].
      split; [|split; [|split]]; cbn; auto. intros _ X; cbn in X. specialize (W X); congruence.
    - destruct (get_or_create ts g (us_target u)) eqn:E; try discriminate. intros [= <- <-].
      destruct (get_or_create_grows _ _ _ E) as [G C].
      split; [|split; [|split]]; cbn; auto.
      + destruct by_value; [|auto]. eapply grows_trans; [eassumption|apply add_grows].
      + intros _ X; cbn in X. specialize (W X); congruence.
      + destruct by_value; [|auto]. apply (add_grows a). auto.
    - destruct (if by_value then _ else _) as [boxed|] eqn:B; [|discriminate].
      destruct (get_or_create ts g (us_target u)) eqn:E; try discriminate. intros [= <- <-].
      destruct (get_or_create_grows _ _ _ E) as [G C].
      split; [|split; [|split]]; cbn; auto.
      + destruct boxed; [auto|]. eapply grows_trans; [eassumption|apply add_grows].
      + intros X Y; cbn in X, Y. apply andb_true_iff in X. destruct X as [X1 X2].
        destruct boxed; [discriminate|]. cbn. split; [apply add_has; auto|].
        intros (K & C' & I). specialize (W Y). rewrite A in W. injection W as ->. rewrite X1 in B.
        rewrite (need_box_reached _ reach (g_cache g) _ K C' I) in B. discriminate.
      + destruct boxed; [auto|]. apply (add_grows a). auto.
  Qed.

  Lemma do_uses_spec reach l g g' fs :
    (forall u, In u l -> wf_use u) -> do_uses ts reach g l = Ok (g', fs) ->
    grows g g' /\ (forall f, In f fs -> field_ok reach g g' f) /\
    map f_target fs = map us_target l /\ (forall f, In f fs -> is_cached (g_cache g') (f_target f) = true).
  Proof.
    revert g g' fs; induction l as [|u l IH]; cbn; intros g g' fs W.
    - intros [= <- <-]. split; [apply grows_refl|]. split; [|split]; cbn; auto; intros f [].
    - destruct (do_use ts reach g u) as [[g1 f]| |] eqn:E1; try discriminate.
      destruct (do_uses ts reach g1 l) as [[g2 fs']| |] eqn:E2; try discriminate. intros [= <- <-].
      destruct (do_use_spec _ _ _ _ _ (W u (or_introl eq_refl)) E1) as (G1 & F1 & T1 & C1).
      destruct (IH _ _ _ (fun u I => W u (or_intror I)) E2) as (G2 & F2 & T2 & C2).
      split; [eapply grows_trans; eauto|]. split; [|split].
      + intros x [<-|X] Hi He.
        * destruct (F1 Hi He) as [I N]. split; [|auto]. eapply incl_tran; [exact I|apply (gr_reach _ _ G2)].
        * destruct (F2 _ X Hi He) as [I N]. split; [auto|]. intros (K & C & R). apply N.
          repeat split; auto. apply (gr_cached _ _ G1); auto.
      + cbn. congruence.
      + intros x [<-|X]; [|auto]. rewrite T1. apply (gr_cached _ _ G2); auto.
  Qed.

  (** * The invariant *)
  Definition order (g : gen) : list tident := map fst (g_done g).

  Record inv (g : gen) : Prop := {
    iv_nodup : NoDup (order g ++ g_pending g);
    iv_cached : forall i, In i (order g ++ g_pending g) -> is_cached (g_cache g) i = true;
    iv_known : forall i, In i (order g ++ g_pending g) -> known i;
    iv_run : forall x l y, within (x :: l) (order g) -> chain (keeps_element (g_done g)) (x :: l) y ->
      In x (cached g y);
    iv_free : forall pre m fs post p q, g_done g = pre ++ (m, fs) :: post ->
      within p (map fst pre) -> within q (map fst pre) -> ~ cycle (keeps_element (g_done g)) (p ++ q ++ [m]) }.

  Lemma nodup_left {A} (l m : list A) : NoDup (l ++ m) -> NoDup l.
  Proof.
    induction l; cbn; intros N; [constructor|]. inversion N; subst. constructor; [|auto].
    intros I. apply H1. rewrite in_app_iff; auto.
  Qed.

  Lemma inv_grows g g' : inv g -> grows g g' -> inv g'.
  Proof.
    intros [N C K R F] [D GR GC (new & P & Nn & Hn) O].
    unfold order in *. split; unfold order; rewrite ?D.
    - rewrite P, app_assoc. apply nodup_join; auto.
      intros x X1 X2. destruct (Hn _ X2) as (Fx & _). rewrite (C _ X1) in Fx. discriminate.
    - rewrite P, app_assoc. intros i. rewrite in_app_iff. intros [I|I]; [auto|]. apply Hn; auto.
    - rewrite P, app_assoc. intros i. rewrite in_app_iff. intros [I|I]; [auto|]. apply Hn; auto.
    - intros x l y W H. apply GR. eapply R; eauto.
    - auto.
  Qed.

  (** Old types keep what they kept. *)
  Lemma keeps_old done t fs a b :
    ~ In t (map fst done) -> In a (map fst done) ->
    keeps_element (done ++ [(t, fs)]) a b -> keeps_element done a b.
  Proof.
    intros N I (fs' & f & H & Hf). apply in_app_iff in H. destruct H as [H|[[= <- <-]|[]]].
    - exists fs', f. auto.
    - contradiction.
  Qed.
  Lemma keeps_new done t fs b :
    ~ In t (map fst done) -> keeps_element (done ++ [(t, fs)]) t b ->
    exists f, In f fs /\ f_target f = b /\ f_inline f = true /\ f_element f = true.
  Proof.
    intros N (fs' & f & H & Hf). apply in_app_iff in H. destruct H as [H|[[= <-]|[]]].
    - exfalso. apply N. apply in_map_iff. exists (t, fs'). auto.
    - exists f. auto.
  Qed.

  Lemma chain_old done t fs l z :
    ~ In t (map fst done) -> within l (map fst done) ->
    chain (keeps_element (done ++ [(t, fs)])) l z -> chain (keeps_element done) l z.
  Proof.
    intros N W. apply chain_mono. intros a b I. apply keeps_old; auto. eapply within_in; eauto.
  Qed.

  Lemma reach_self g i : In i (get_reachable g i).
  Proof. left; auto. Qed.
  Lemma reach_one g i j : In j (cached g i) -> In j (get_reachable g i).
  Proof. intros I. right. apply in_flat_map. exists j. split; [auto|left; auto]. Qed.
  Lemma reach_two g i j k : In j (cached g i) -> In k (cached g j) -> In k (get_reachable g i).
  Proof. intros I J. right. apply in_flat_map. exists j. split; [auto|right; auto]. Qed.

  Lemma intern_inv g i rest g' :
    inv g -> g_pending g = i :: rest ->
    generate_intern ts flags mentions (Gen (g_cache g) rest (g_done g)) i = Ok g' -> inv g'.
  Proof.
    intros [N C K R F] P. unfold order in *. rewrite P in N, C, K.
    set (g0 := Gen (g_cache g) rest (g_done g)). unfold generate_intern.
    destruct (do_uses _ _ _ _) as [[g1 fs]| |] eqn:E; try discriminate. intros [= <-].
    destruct (do_uses_spec _ _ _ _ _ (wf_all i) E) as (G & FO & _ & _).
    assert (D : g_done g1 = g_done g) by apply (gr_done _ _ G).
    assert (Ni : ~ In i (map fst (g_done g))).
    { intros I. apply NoDup_remove_2 in N. apply N. rewrite in_app_iff; auto. }
    assert (Nr : ~ In i rest).
    { intros I. apply NoDup_remove_2 in N. apply N. rewrite in_app_iff; auto. }
    destruct (gr_pending _ _ G) as (new & P1 & Nn & Hn). cbn in P1.
    assert (Ci : is_cached (g_cache g) i = true) by (apply C; rewrite in_app_iff; cbn; auto).
    assert (Nd : NoDup (map fst (g_done g) ++ rest)) by (apply NoDup_remove_1 in N; auto).
    assert (NN : forall x, In x new -> x <> i /\ ~ In x (map fst (g_done g)) /\ ~ In x rest).
    { intros x X. destruct (Hn _ X) as (Fx & _). cbn in Fx. repeat split; intros Y.
      - subst. congruence.
      - rewrite C in Fx by (rewrite in_app_iff; auto). discriminate.
      - rewrite C in Fx by (rewrite in_app_iff; cbn; auto). discriminate. }
    assert (RC : forall j, incl (cached g j) (cached g1 j)) by (intros j; apply (gr_reach _ _ G j)).
    assert (Rr : get_reachable g0 i = get_reachable g i) by reflexivity.
    split; unfold order; cbn [g_done g_pending g_cache]; rewrite D, ?map_app; cbn [map fst].
    - rewrite P1. rewrite <- app_assoc. cbn. apply (NoDup_Add (Add_app i (map fst (g_done g)) (rest ++ new))).
      split.
      + rewrite app_assoc. apply nodup_join; auto.
        intros x X1 X2. destruct (NN _ X2) as (_ & A & B). rewrite in_app_iff in X1. tauto.
      + rewrite !in_app_iff. intros [H|[H|H]]; auto. destruct (NN _ H) as [X _]. apply X; auto.
    - rewrite P1. intros j J. rewrite !in_app_iff in J. cbn in J.
      destruct J as [[J|[<-|[]]]|[J|J]].
      + apply (gr_cached _ _ G). cbn. apply C. rewrite in_app_iff; auto.
      + apply (gr_cached _ _ G); auto.
      + apply (gr_cached _ _ G). cbn. apply C. rewrite in_app_iff; cbn; auto.
      + apply Hn; auto.
    - rewrite P1. intros j J. rewrite !in_app_iff in J. cbn in J.
      destruct J as [[J|[<-|[]]]|[J|J]].
      + apply K. rewrite in_app_iff; auto.
      + apply K. rewrite in_app_iff; cbn; auto.
      + apply K. rewrite in_app_iff; cbn; auto.
      + apply Hn; auto.
    - intros x l y W H. enough (In x (cached g1 y)) by assumption.
      apply within_snoc in W. destruct W as [W|(a & Ea & W)].
      + apply RC. eapply R; [exact W|]. eapply chain_old; eauto.
      + rewrite Ea in H. apply chain_snoc in H. destruct H as [Hc Hk].
        destruct (keeps_new _ _ _ _ Ni Hk) as (f & If & Tf & Inf & Elf).
        destruct (FO f If Inf Elf) as [In1 _]. rewrite Tf in In1. apply In1. rewrite Rr.
        destruct a as [|x' a]; cbn in Ea; injection Ea as -> ->; [apply reach_self|].
        apply reach_one. apply (R x' a i); [exact W|]. eapply chain_old; eauto.
    - intros pre m fs' post p q E' Wp Wq Cy.
      destruct post as [|e post] using rev_ind.
      + apply app_inj_tail in E'. destruct E' as [<- [= <- <-]].
        (* the new type closes the cycle *)
        assert (X : exists x, In x (get_reachable g i) /\ known x /\ is_cached (g_cache g) x = true /\
                              keeps_element (g_done g ++ [(i, fs)]) i x).
        { destruct p as [|x p].
          - destruct q as [|x q]; cbn [app] in Cy.
            + cbn in Cy. exists i. repeat split; auto; [apply reach_self|apply K; rewrite in_app_iff; cbn; auto].
            + change (chain (keeps_element (g_done g ++ [(i, fs)])) ((x :: q) ++ [i]) x) in Cy.
              apply chain_snoc in Cy. destruct Cy as [Hc Hk].
              assert (Ix : In x (map fst (g_done g))) by (eapply within_in; [exact Wq|left; auto]).
              exists x. repeat split; auto; [|apply K; rewrite in_app_iff; auto|apply C; rewrite in_app_iff; auto].
              apply reach_one. apply (R x q i); [auto|]. eapply chain_old; eauto.
          - assert (Ix : In x (map fst (g_done g))) by (eapply within_in; [exact Wp|left; auto]).
            assert (Cy' : chain (keeps_element (g_done g ++ [(i, fs)])) ((x :: p) ++ q ++ [i]) x) by exact Cy.
            exists x. split; [|split; [|split]].
            + destruct q as [|y q]; cbn [app] in Cy'.
              * change (chain (keeps_element (g_done g ++ [(i, fs)])) ((x :: p) ++ [i]) x) in Cy'.
                apply chain_snoc in Cy'. destruct Cy' as [Hc Hk].
                apply reach_one. apply (R x p i); [auto|]. eapply chain_old; eauto.
              * change (chain (keeps_element (g_done g ++ [(i, fs)])) ((x :: p) ++ y :: (q ++ [i])) x) in Cy'.
                apply chain_app in Cy'. destruct Cy' as [Hc Hc'].
                change (chain (keeps_element (g_done g ++ [(i, fs)])) ((y :: q) ++ [i]) x) in Hc'.
                apply chain_snoc in Hc'. destruct Hc' as [Hc' Hk].
                apply (reach_two g i y x).
                -- apply (R y q i); [auto|]. eapply chain_old; eauto.
                -- apply (R x p y); [auto|]. eapply chain_old; eauto.
            + apply K; rewrite in_app_iff; auto.
            + apply C; rewrite in_app_iff; auto.
            + rewrite app_assoc in Cy'. apply chain_snoc in Cy'. tauto. }
        destruct X as (x & Rx & Kx & Cx & Hk).
        destruct (keeps_new _ _ _ _ Ni Hk) as (f & If & Tf & Inf & Elf).
        destruct (FO f If Inf Elf) as [_ Nf]. apply Nf. rewrite Tf. auto.
      + clear IHpost. change (pre ++ (m, fs') :: post ++ [e]) with (pre ++ ((m, fs') :: post) ++ [e]) in E'.
        rewrite app_assoc in E'. apply app_inj_tail in E'. destruct E' as [E' <-].
        apply (F pre m fs' post p q E' Wp Wq).
        assert (L : forall a, In a (p ++ q ++ [m]) -> In a (map fst (g_done g))).
        { intros a. rewrite E', map_app, !in_app_iff. cbn. intros [A|[A|[<-|[]]]]; auto.
          - left. exact (within_in _ _ _ Wp A).
          - left. exact (within_in _ _ _ Wq A). }
        destruct (p ++ q ++ [m]) as [|a l] eqn:El; [exact Cy|].
        revert Cy. apply (chain_mono _ _ (a :: l) a). intros b c Hb. apply keeps_old; auto.
  Qed.

  Lemma pending_inv fuel g g' : inv g -> generate_pending ts flags mentions fuel g = Ok g' -> inv g'.
  Proof.
    revert g; induction fuel; cbn; intros g I; destruct (g_pending g) eqn:P; try discriminate.
    - intros [= <-]; auto.
    - intros [= <-]; auto.
    - destruct (generate_intern _ _ _ _ _) as [g1| |] eqn:E; try discriminate.
      apply IHfuel. eapply intern_inv; eauto.
  Qed.

  Lemma register_grows l g g' :
    register ts g l = Ok g' -> grows g g' /\ forall i, In i l -> is_cached (g_cache g') i = true.
  Proof.
    revert g; induction l as [|i l IH]; cbn; intros g.
    - intros [= <-]. split; [apply grows_refl|tauto].
    - destruct (get_or_create ts g i) as [g1| |] eqn:E; try discriminate. intros H.
      destruct (get_or_create_grows _ _ _ E) as [G1 C1]. destruct (IH _ H) as [G2 C2].
      split; [eapply grows_trans; eauto|]. intros j [<-|J]; [|auto]. apply (gr_cached _ _ G2); auto.
  Qed.

  Lemma batches_inv l g g' : inv g -> generate_batches ts flags mentions g l = Ok g' -> inv g'.
  Proof.
    revert g; induction l as [|b l IH]; cbn; intros g I.
    - intros [= <-]; auto.
    - unfold generate_batch. destruct (register ts g b) as [g1| |] eqn:E; try discriminate.
      destruct (generate_pending _ _ _ _ g1) as [g2| |] eqn:E2; try discriminate. apply IH.
      eapply pending_inv; [|exact E2]. eapply inv_grows; [exact I|]. eapply register_grows; eauto.
  Qed.

  Lemma new_inv fixed : inv (gen_new fixed).
  Proof.
    split; unfold order; cbn; try constructor; try tauto.
    - intros x l y W. inversion W.
    - intros pre m fs post p q E. destruct pre; discriminate.
  Qed.

  (** No cycle of elements is the concatenation of two parts of the order of generation. *)
  Lemma no_two_runs fixed calls out p q :
    generate ts flags mentions fixed calls = Ok out ->
    within p (map fst out) -> within q (map fst out) -> ~ cycle (keeps_element out) (p ++ q).
  Proof.
    unfold generate. destruct (generate_batches _ _ _ _ _) as [g| |] eqn:E; try discriminate. intros [= <-].
    pose proof (batches_inv _ _ _ (new_inv fixed) E) as [N _ _ _ F]. unfold order in N.
    apply nodup_left in N.
    (* [last x of the second run] is generated after all others, or the other way round *)
    assert (L : forall a b m, within (b ++ [m]) (map fst (g_done g)) ->
      within a (map fst (g_done g)) ->
      (forall pre post, map fst (g_done g) = pre ++ m :: post -> within a pre) ->
      ~ cycle (keeps_element (g_done g)) (a ++ b ++ [m])).
    { intros a b m Wb Wa H. destruct (within_snoc_inv _ _ _ Wb N) as (pre & post & Eo & Wp).
      specialize (H _ _ Eo).
      assert (X : exists dpre fs dpost, g_done g = dpre ++ (m, fs) :: dpost /\ map fst dpre = pre).
      { clear -Eo. revert pre Eo. induction (g_done g) as [|[k fs] d IH]; intros pre Eo.
        - destruct pre; discriminate.
        - destruct pre as [|k' pre]; cbn in Eo.
          + injection Eo as -> _. exists [], fs, d. auto.
          + injection Eo as -> Eo. destruct (IH _ Eo) as (dpre & fs' & dpost & -> & Ed).
            exists ((k', fs) :: dpre), fs', dpost. cbn. split; [auto|]. congruence. }
      destruct X as (dpre & fs & dpost & Ed & <-). eapply F; eauto. }
    intros Wp Wq.
    destruct q as [|m q _] using rev_ind.
    - rewrite app_nil_r. destruct p as [|m p _] using rev_ind; [cbn; auto|].
      specialize (L [] p m Wp (within_nil_l _)). cbn [app] in L. apply L. intros; apply within_nil_l.
    - destruct p as [|k p _] using rev_ind.
      + specialize (L [] q m Wq (within_nil_l _)). cbn [app] in *. apply L. intros; apply within_nil_l.
      + destruct (within_snoc_inv _ _ _ Wp N) as (pp & pq & Ep & Wp').
        destruct (within_snoc_inv _ _ _ Wq N) as (qp & qq & Eq & Wq').
        assert (T : k = m \/ In k qp \/ In m pp).
        { rewrite Ep in Eq. clear -Eq. revert qp Eq. induction pp as [|a pp IH]; intros [|b qp] Eq; cbn in *.
          - injection Eq as -> _. auto.
          - injection Eq as -> _. auto.
          - injection Eq as -> _. auto.
          - injection Eq as -> Eq. destruct (IH _ Eq) as [T|[T|T]]; auto. }
        assert (S2 : forall (k m : tident) p qp qq pp pq,
          map fst (g_done g) = qp ++ m :: qq -> map fst (g_done g) = pp ++ k :: pq -> within p pp -> In k qp ->
          within (p ++ [k]) qp).
        { clear -N. intros k m p qp qq pp pq Eq Ep W I. apply in_split in I. destruct I as (u & v & ->).
          rewrite Eq in N, Ep. rewrite <- app_assoc in Ep, N. cbn in Ep, N.
          assert (u = pp).
          { assert (Nk : ~ In k u) by (intros I; apply NoDup_remove_2 in N; apply N; rewrite in_app_iff; auto).
            assert (Nk' : ~ In k pp).
            { rewrite Ep in N. intros I; apply NoDup_remove_2 in N; apply N; rewrite in_app_iff; auto. }
            clear -Ep Nk Nk'. revert pp Ep Nk'. induction u as [|a u IH]; intros [|b pp] Ep Nk'; cbn in *; auto.
            - injection Ep as -> _. tauto.
            - injection Ep as -> _. tauto.
            - injection Ep as -> Ep. f_equal. apply IH; tauto. }
          subst. clear -W. induction W; cbn.
          - apply within_take, within_nil_l.
          - apply within_skip; auto.
          - apply within_take; auto. }
        destruct T as [->|[T|T]].
        * (* the same type twice: it closes a shorter cycle *)
          intros Cy. rewrite <- app_assoc in Cy. cbn in Cy.
          (* p ++ m :: q ++ [m]: the part q ++ [m] is a cycle by itself *)
          assert (Cq : cycle (keeps_element (g_done g)) (q ++ [m])).
          { apply cycle_rotate with (l := p) in Cy.
            assert (A : (m :: q ++ [m]) ++ p = (m :: q) ++ m :: p) by (cbn; rewrite <- app_assoc; auto).
            rewrite A in Cy. clear A.
            change (chain (keeps_element (g_done g)) ((m :: q) ++ m :: p) m) in Cy.
            apply chain_app in Cy. destruct Cy as [Cy _].
            apply (cycle_rotate _ [m] q). exact Cy. }
          specialize (L [] q m Wq (within_nil_l _)). cbn [app] in L. apply L; [|exact Cq]. intros; apply within_nil_l.
        * apply (L (p ++ [k]) q m Wq Wp). intros pre post E1.
          apply (S2 k m p pre post pp pq E1 Ep Wp').
          rewrite Eq in E1. clear -E1 T N Eq.
          assert (qp = pre); [|subst; auto].
          assert (Nm : ~ In m qp) by (rewrite Eq in N; intros I; apply NoDup_remove_2 in N; apply N; rewrite in_app_iff; auto).
          assert (Nm' : ~ In m pre).
          { rewrite Eq, E1 in N. intros I; apply NoDup_remove_2 in N; apply N; rewrite in_app_iff; auto. }
          clear N T Eq. revert pre E1 Nm'. induction qp as [|a u IH]; intros [|b pp] Ep Nk'; cbn in *; auto.
          -- injection Ep as -> _. tauto.
          -- injection Ep as -> _. tauto.
          -- injection Ep as -> Ep. f_equal. apply IH; tauto.
        * intros Cy. apply cycle_rotate in Cy. revert Cy.
          apply (L (q ++ [m]) p k Wp Wq). intros pre post E1.
          apply (S2 m k q pre post qp qq E1 Eq Wq').
          rewrite Ep in E1. clear -E1 T N Ep.
          assert (pp = pre); [|subst; auto].
          assert (Nm : ~ In k pp) by (rewrite Ep in N; intros I; apply NoDup_remove_2 in N; apply N; rewrite in_app_iff; auto).
          assert (Nm' : ~ In k pre).
          { rewrite Ep, E1 in N. intros I; apply NoDup_remove_2 in N; apply N; rewrite in_app_iff; auto. }
          clear N T Ep. revert pre E1 Nm'. induction pp as [|a u IH]; intros [|b pp] Ep Nk'; cbn in *; auto.
          -- injection Ep as -> _. tauto.
          -- injection Ep as -> _. tauto.
          -- injection Ep as -> Ep. f_equal. apply IH; tauto.
  Qed.
End Gen.

(** * Short cycles *)
Lemma within_one {A} (x : A) l : In x l -> within [x] l.
Proof.
  induction l; cbn; [tauto|]. intros [->|I]; [apply within_take, within_nil_l|apply within_skip; auto].
Qed.
Lemma within_pair {A} (x y : A) l : In x l -> In y l -> x <> y -> within [x; y] l \/ within [y; x] l.
Proof.
  induction l as [|z l IH]; cbn; [tauto|]. intros [->|X] [->|Y] N.
  - congruence.
  - left. apply within_take, within_one; auto.
  - right. apply within_take, within_one; auto.
  - destruct (IH X Y N); [left|right]; apply within_skip; auto.
Qed.
Lemma within_not {A} (x : A) a l z : within (x :: a) (z :: l) -> ~ In x l -> x = z.
Proof.
  intros W N. inversion W; subst; [|auto]. exfalso. apply N. eapply within_in; [eassumption|left; auto].
Qed.
Lemma within_down {A} (x y z : A) l : within [x; y] (z :: l) -> x <> z -> within [x; y] l.
Proof. intros W N. inversion W; subst; [auto|congruence]. Qed.
Lemma within_three {A} (a b c : A) l : NoDup l -> within [b; a] l -> within [c; b] l -> within [a; c] l -> False.
Proof.
  induction l as [|z l IH]; intros N W1 W2 W3; [inversion W1|]. inversion N as [|? ? Nz Nl]; subst.
  assert (S : forall x y, within [x; y] (z :: l) -> y <> z).
  { intros x y W ->. inversion W; subst.
    - apply Nz. eapply within_in; [eassumption|]. cbn; auto.
    - apply Nz. eapply within_in; [eassumption|]. cbn; auto. }
  apply IH; auto; eapply within_down; eauto.
Qed.

Section Short.
  Variables (ts : types) (flags : box_flags) (mentions : tident -> list tident).

  Lemma gen_nodup fixed calls out : generate ts flags mentions fixed calls = Ok out -> NoDup (map fst out).
  Proof.
    unfold generate. destruct (generate_batches _ _ _ _ _) as [g| |] eqn:E; try discriminate. intros [= <-].
    assert (I : inv ts g) by (eapply batches_inv; [|exact E]; apply new_inv; assumption).
    destruct I as [N _ _ _ _]. apply nodup_left in N. exact N.
  Qed.

  Lemma no_short fixed calls out l :
    generate ts flags mentions fixed calls = Ok out -> length l <= 3 -> ~ cycle (keeps_element out) l.
  Proof.
    intros G L Cy. pose proof (gen_nodup _ _ _ G) as N.
    assert (S : forall a b, keeps_element out a b -> In a (map fst out)).
    { intros a b (fs & f & H & _). apply in_map_iff. exists (a, fs). auto. }
    pose proof (fun p q => no_two_runs ts flags mentions fixed calls out p q G) as T.
    assert (T1 : forall a, ~ keeps_element out a a).
    { intros a K. apply (T [] [a]); [apply within_nil_l|apply within_one; eauto|exact K]. }
    destruct l as [|a [|b [|c [|d l]]]]; cbn in L; try lia; cbn in Cy.
    - auto.
    - apply (T1 a); auto.
    - destruct Cy as [A B]. apply (T [a] [b]); [apply within_one; eauto..|cbn; auto].
    - destruct Cy as [A [B C]].
      assert (Nab : a <> b) by (intros ->; eapply T1; eauto).
      assert (Nbc : b <> c) by (intros ->; eapply T1; eauto).
      assert (Nca : c <> a) by (intros ->; eapply T1; eauto).
      assert (Wab : ~ within [a; b] (map fst out)).
      { intros W. apply (T [c] [a; b]); [apply within_one; eauto|auto|cbn; auto]. }
      assert (Wbc : ~ within [b; c] (map fst out)).
      { intros W. apply (T [a] [b; c]); [apply within_one; eauto|auto|cbn; auto]. }
      assert (Wca : ~ within [c; a] (map fst out)).
      { intros W. apply (T [b] [c; a]); [apply within_one; eauto|auto|cbn; auto]. }
      destruct (within_pair a b (map fst out)) as [W|W1]; eauto.
      destruct (within_pair b c (map fst out)) as [W|W2]; eauto.
      destruct (within_pair c a (map fst out)) as [W|W3]; eauto.
      eapply within_three; eauto.
  Qed.

  (** * The generator ends *)
  Definition left_over (l : list tident) : nat :=
    length (filter (fun k => negb (contains k l)) (map fst ts)).

  Lemma lookup_key {V} i (m : list (tident * V)) : lookup i m <> None -> In i (map fst m).
  Proof. induction m as [|[k v] m IH]; cbn; [congruence|]. destruct (tident_eq_dec i k); auto. Qed.

  Lemma filter_less {A} (f g : A -> bool) l x :
    (forall y, g y = true -> f y = true) -> In x l -> f x = true -> g x = false ->
    length (filter g l) < length (filter f l).
  Proof.
    intros H I F G.
    assert (M : forall l, length (filter g l) <= length (filter f l)).
    { clear -H. induction l as [|y l IH]; cbn; [lia|]. destruct (g y) eqn:E; [rewrite (H _ E); cbn; lia|].
      destruct (f y); cbn; lia. }
    induction l as [|y l IH]; cbn; [destruct I|]. destruct I as [->|I].
    - rewrite F, G. cbn. specialize (M l). lia.
    - specialize (IH I). destruct (g y) eqn:E; [rewrite (H _ E); cbn; lia|]. destruct (f y); cbn; lia.
  Qed.

  Lemma need_box_ends fuel reach c i : left_over reach < fuel -> need_box ts fuel reach c i <> None.
  Proof.
    revert reach i; induction fuel as [|fuel IH]; intros reach i L; [lia|]. cbn.
    destruct (lookup i ts) as [ty|] eqn:E; [|discriminate].
    destruct (is_cached c i); [|discriminate].
    destruct (contains i reach) eqn:C; [discriminate|].
    assert (L' : left_over (i :: reach) < fuel).
    { enough (left_over (i :: reach) < left_over reach) by lia. unfold left_over.
      apply (filter_less _ _ _ i).
      - intros y. rewrite !negb_true_iff. cbn. intros Y. apply orb_false_iff in Y. tauto.
      - apply lookup_key. congruence.
      - rewrite C. reflexivity.
      - cbn. destruct (tident_eq_dec i i); [reflexivity|congruence]. }
    induction (box_targets (m_variant ty)) as [|t l IHl]; cbn; [discriminate|].
    specialize (IH (i :: reach) t L'). destruct (need_box ts fuel (i :: reach) c t) as [[]|]; try discriminate; auto.
  Qed.

  Lemma left_le l : left_over l <= length ts.
  Proof.
    unfold left_over. rewrite <- (map_length fst ts). generalize (map fst ts). intros m.
    induction m as [|y m IH]; cbn; [lia|]. destruct (negb _); cbn; lia.
  Qed.

  (** The work to do: queued types and types nobody asked for yet. *)
  Definition work (g : gen) : nat := length (g_pending g) + left_over (map fst (g_cache g)).

  Lemma is_cached_key c i : is_cached c i = contains i (map fst c).
  Proof.
    induction c as [|[k v] c IH]; cbn; [auto|]. unfold is_cached in *. cbn.
    destruct (tident_eq_dec i k); cbn; auto.
  Qed.

  Lemma get_or_create_work g i : get_or_create ts g i <> Panic /\
    forall g', get_or_create ts g i = Ok g' -> work g' <= work g.
  Proof.
    unfold get_or_create. destruct (is_cached (g_cache g) i) eqn:C.
    - split; [discriminate|]. intros g' [= <-]. lia.
    - destruct (lookup i ts) eqn:L; (split; [discriminate|]); intros g'; [|discriminate].
      intros [= <-]. unfold work; cbn. rewrite app_length, map_app. cbn.
      enough (left_over (map fst (g_cache g) ++ [i]) < left_over (map fst (g_cache g))) by lia.
      apply (filter_less _ _ _ i).
      + intros y. rewrite !negb_true_iff. unfold contains. rewrite existsb_app. intros Y. apply orb_false_iff in Y. tauto.
      + apply lookup_key. congruence.
      + rewrite <- is_cached_key, C. reflexivity.
      + unfold contains. rewrite existsb_app. cbn. destruct (tident_eq_dec i i); [|congruence].
        rewrite orb_true_r. reflexivity.
  Qed.

  Lemma add_work g i r : work (add_reachable g i r) = work g.
  Proof.
    unfold work, add_reachable; cbn. f_equal. f_equal. rewrite map_map. apply map_ext.
    intros [k v]; cbn. destruct (tident_eq_dec k i); auto.
  Qed.

  Lemma do_use_work reach g u : do_use ts reach g u <> Panic /\
    forall g' f, do_use ts reach g u = Ok (g', f) -> work g' <= work g.
  Proof.
    unfold do_use. destruct (get_or_create_work g (us_target u)) as [P W]. destruct (us_ask u).
    - destruct (get_or_create ts g (us_target u)); (split; [discriminate||congruence|]); intros g' f; try discriminate.
      intros [= <- <-]; auto.
    - destruct (get_or_create ts g (us_target u)); (split; [discriminate||congruence|]); intros g' f; try discriminate.
      intros [= <- <-]. destruct by_value; rewrite ?add_work; auto.
    - destruct (if by_value then _ else _) as [boxed|] eqn:B.
      + destruct (get_or_create ts g (us_target u)); (split; [discriminate||congruence|]); intros g' f; try discriminate.
        intros [= <- <-]. destruct boxed; rewrite ?add_work; auto.
      + exfalso. destruct by_value; [|discriminate]. revert B. apply need_box_ends.
        pose proof (left_le reach). lia.
  Qed.

  Lemma do_uses_work reach l g : do_uses ts reach g l <> Panic /\
    forall g' fs, do_uses ts reach g l = Ok (g', fs) -> work g' <= work g.
  Proof.
    revert g; induction l as [|u l IH]; cbn; intros g.
    - split; [discriminate|]. intros g' fs [= <- <-]; auto.
    - destruct (do_use_work reach g u) as [P W]. destruct (do_use ts reach g u) as [[g1 f]| |];
        [|split; discriminate|congruence].
      destruct (IH g1) as [P1 W1]. destruct (do_uses ts reach g1 l) as [[g2 fs]| |];
        [|split; discriminate|congruence].
      split; [discriminate|]. intros g' fs' [= <- <-]. specialize (W _ _ eq_refl). specialize (W1 _ _ eq_refl). lia.
  Qed.

  Lemma pending_ends fuel g : work g <= fuel -> generate_pending ts flags mentions fuel g <> Panic.
  Proof.
    revert g; induction fuel as [|fuel IH]; intros g W; cbn; destruct (g_pending g) as [|i rest] eqn:P; try discriminate.
    - unfold work in W. rewrite P in W. cbn in W. lia.
    - unfold generate_intern.
      destruct (do_uses_work (get_reachable (Gen (g_cache g) rest (g_done g)) i)
        (all_uses ts flags mentions i) (Gen (g_cache g) rest (g_done g))) as [Q V].
      destruct (do_uses _ _ _ _) as [[g1 fs]| |]; [|discriminate|congruence].
      apply IH. specialize (V _ _ eq_refl). unfold work in *. cbn in *. rewrite P in W. cbn in W. lia.
  Qed.

  Lemma register_work l g : register ts g l <> Panic /\ forall g', register ts g l = Ok g' -> work g' <= work g.
  Proof.
    revert g; induction l as [|i l IH]; cbn; intros g.
    - split; [discriminate|]. intros g' [= <-]; auto.
    - destruct (get_or_create_work g i) as [P W]. destruct (get_or_create ts g i) as [g1| |];
        [|split; discriminate|congruence].
      destruct (IH g1) as [P1 W1]. split; [auto|]. intros g' H. specialize (W _ eq_refl). specialize (W1 _ H). lia.
  Qed.

  (** The queue is empty afterwards. *)
  Lemma pending_empty fuel g g' : generate_pending ts flags mentions fuel g = Ok g' -> g_pending g' = [].
  Proof.
    revert g; induction fuel; cbn; intros g; destruct (g_pending g) eqn:P; try discriminate.
    - intros [= <-]; auto.
    - intros [= <-]; auto.
    - destruct (generate_intern _ _ _ _ _); try discriminate. apply IHfuel.
  Qed.

  Lemma batches_end l g : g_pending g = [] -> generate_batches ts flags mentions g l <> Panic.
  Proof.
    revert g; induction l as [|b l IH]; cbn; intros g E; [discriminate|]. unfold generate_batch.
    destruct (register_work b g) as [P W]. destruct (register ts g b) as [g1| |]; [|discriminate|congruence].
    assert (W1 : work g1 <= S (length ts)).
    { specialize (W _ eq_refl). unfold work in W at 2. rewrite E in W. cbn in W.
      pose proof (left_le (map fst (g_cache g))). lia. }
    pose proof (pending_ends _ _ W1) as Q.
    destruct (generate_pending _ _ _ _ g1) as [g2| |] eqn:G; [|discriminate|congruence].
    apply IH. eapply pending_empty; eauto.
  Qed.

  Lemma generate_ends fixed calls : generate ts flags mentions fixed calls <> Panic.
  Proof.
    unfold generate. pose proof (batches_end calls (gen_new fixed) eq_refl) as H.
    destruct (generate_batches _ _ _ _ _); congruence.
  Qed.

  (** * Nothing missing, nothing superfluous *)
  Record closed (fixed req : list tident) (g : gen) : Prop := {
    cl_cached : forall j, is_cached (g_cache g) j = true -> In j (order g ++ g_pending g) \/ In j fixed;
    cl_fixed : forall j, In j fixed -> is_cached (g_cache g) j = true /\ ~ In j (order g ++ g_pending g);
    cl_names : forall a b, names (g_done g) a b -> is_cached (g_cache g) b = true;
    cl_req : forall j, In j (order g ++ g_pending g) -> In j req \/ exists a, names (g_done g) a j }.

  Lemma do_uses_pending reach l g g' fs j :
    do_uses ts reach g l = Ok (g', fs) -> In j (g_pending g') -> In j (g_pending g) \/ In j (map us_target l).
  Proof.
    revert g g' fs; induction l as [|u l IH]; cbn; intros g g' fs.
    - intros [= <- <-]; auto.
    - destruct (do_use ts reach g u) as [[g1 f]| |] eqn:E1; try discriminate.
      destruct (do_uses ts reach g1 l) as [[g2 fs']| |] eqn:E2; try discriminate. intros [= <- <-] J.
      destruct (IH _ _ _ E2 J) as [K|K]; [|auto].
      assert (X : forall g1', get_or_create ts g (us_target u) = Ok g1' -> In j (g_pending g1') ->
        In j (g_pending g) \/ us_target u = j).
      { intros g1'. unfold get_or_create. destruct (is_cached _ _); [intros [= <-]; auto|].
        destruct (lookup _ ts); [|discriminate]. intros [= <-]. cbn. rewrite in_app_iff. cbn. tauto. }
      enough (In j (g_pending g) \/ us_target u = j) by tauto.
      unfold do_use in E1. destruct (us_ask u).
      + destruct (get_or_create ts g (us_target u)) eqn:E; try discriminate. injection E1 as <- <-. eauto.
      + destruct (get_or_create ts g (us_target u)) eqn:E; try discriminate. injection E1 as <- <-.
        destruct by_value; eauto.
      + destruct (if by_value then _ else _) as [boxed|]; [|discriminate].
        destruct (get_or_create ts g (us_target u)) eqn:E; try discriminate. injection E1 as <- <-.
        destruct boxed; eauto.
  Qed.

  Lemma names_app out t fs a b : names (out ++ [(t, fs)]) a b <-> names out a b \/ (a = t /\ In b (map f_target fs)).
  Proof.
    unfold names. split.
    - intros (fs' & f & H & F & T). apply in_app_iff in H. destruct H as [H|[[= -> ->]|[]]].
      + left. exists fs', f. auto.
      + right. split; [auto|]. apply in_map_iff. exists f. auto.
    - intros [(fs' & f & H & F)|[-> H]].
      + exists fs', f. rewrite in_app_iff. auto.
      + apply in_map_iff in H. destruct H as (f & <- & F). exists fs, f. rewrite in_app_iff. cbn. auto.
  Qed.

  Lemma intern_closed fixed req g i rest g' :
    inv ts g -> closed fixed req g -> g_pending g = i :: rest ->
    generate_intern ts flags mentions (Gen (g_cache g) rest (g_done g)) i = Ok g' -> closed fixed req g'.
  Proof.
    intros I [C F M R] P. unfold order in *. rewrite P in C, F, R.
    set (g0 := Gen (g_cache g) rest (g_done g)). unfold generate_intern.
    destruct (do_uses _ _ _ _) as [[g1 fs]| |] eqn:E; try discriminate. intros [= <-].
    destruct (do_uses_spec _ _ _ _ _ _ (wf_all ts flags mentions i) E) as (G & _ & T & Ca).
    pose proof (gr_done _ _ _ G) as D. cbn in D.
    destruct (gr_pending _ _ _ G) as (new & P1 & Nn & Hn). cbn in P1.
    split; unfold order; cbn [g_done g_pending g_cache]; rewrite D, ?map_app; cbn [map fst].
    - intros j J. destruct (gr_only _ _ _ G _ J) as [K|K].
      + destruct (C _ K) as [L|L]; [left|auto]. rewrite P1. rewrite !in_app_iff in *. cbn in *. tauto.
      + left. rewrite !in_app_iff. auto.
    - intros j J. destruct (F _ J) as [K L]. split; [apply (gr_cached _ _ _ G); auto|].
      rewrite P1, !in_app_iff in *. cbn in *. intros [[X|[X|[]]]|[X|X]]; try tauto.
      destruct (Hn _ X) as [Y _]. cbn in Y. congruence.
    - intros a b H. apply names_app in H. destruct H as [H|[-> H]].
      + apply (gr_cached _ _ _ G). apply (M _ _ H).
      + apply in_map_iff in H. destruct H as (f & <- & H). auto.
    - intros j. rewrite P1, !in_app_iff. cbn. intros J.
      assert (X : In j (map fst (g_done g) ++ i :: rest) \/ In j new).
      { rewrite in_app_iff. cbn. tauto. }
      destruct X as [X|X].
      + destruct (R _ X) as [Y|(a & Y)]; [auto|]. right. exists a. apply names_app. auto.
      + right. exists i. apply names_app. right. split; [auto|]. rewrite T.
        destruct (do_uses_pending _ _ _ _ _ j E) as [Y|Y]; auto.
        * rewrite P1, in_app_iff. auto.
        * cbn in Y. exfalso. destruct (Hn _ X) as [Z _]. cbn in Z.
          rewrite (iv_cached _ _ I) in Z; [discriminate|]. unfold order. rewrite P, in_app_iff. cbn; auto.
  Qed.

  Lemma pending_closed fixed req fuel g g' :
    inv ts g -> closed fixed req g -> generate_pending ts flags mentions fuel g = Ok g' -> closed fixed req g'.
  Proof.
    revert g; induction fuel; cbn; intros g I C; destruct (g_pending g) eqn:P; try discriminate.
    - intros [= <-]; auto.
    - intros [= <-]; auto.
    - destruct (generate_intern _ _ _ _ _) as [g1| |] eqn:E; try discriminate.
      apply IHfuel; [eapply intern_inv; eauto|eapply intern_closed; eauto].
  Qed.

  Lemma register_closed fixed req l g g' :
    closed fixed req g -> register ts g l = Ok g' -> closed fixed (req ++ l) g'.
  Proof.
    revert g req; induction l as [|i l IH]; cbn; intros g req C.
    - intros [= <-]. rewrite app_nil_r; auto.
    - destruct (get_or_create ts g i) as [g1| |] eqn:E; try discriminate. intros H.
      change (i :: l) with ([i] ++ l). rewrite app_assoc. eapply IH; [|exact H].
      destruct C as [C F M R]. unfold get_or_create in E. destruct (is_cached (g_cache g) i) eqn:Ci.
      + injection E as <-. split; auto. intros j J. rewrite in_app_iff. destruct (R _ J); auto.
      + destruct (lookup i ts); [|discriminate]. injection E as <-. unfold order in *.
        assert (K : forall j, is_cached (g_cache g ++ [(i, [])]) j = true <-> is_cached (g_cache g) j = true \/ j = i).
        { intros j. unfold is_cached. rewrite lookup_app. destruct (lookup j (g_cache g)); [tauto|]. cbn.
          destruct (tident_eq_dec j i); split; intros X; auto; try discriminate; destruct X; congruence. }
        split; unfold order; cbn.
        * intros j J. apply K in J. rewrite !in_app_iff. cbn. destruct J as [J| ->]; [|auto].
          destruct (C _ J) as [L|L]; [|auto]. rewrite in_app_iff in L. tauto.
        * intros j J. destruct (F _ J) as [L N]. split; [apply K; auto|]. rewrite !in_app_iff in *. cbn.
          intros [X|[X|[<-|[]]]]; try tauto. congruence.
        * intros a b X. apply K. left. eauto.
        * intros j. rewrite !in_app_iff. cbn. intros J.
          assert (X : In j (map fst (g_done g) ++ g_pending g) \/ i = j) by (rewrite in_app_iff; tauto).
          destruct X as [X| ->]; [|auto]. destruct (R _ X); auto.
  Qed.

  Lemma batches_closed fixed req l g g' :
    inv ts g -> closed fixed req g -> generate_batches ts flags mentions g l = Ok g' ->
    closed fixed (req ++ concat l) g' /\ (forall i, In i (concat l) -> is_cached (g_cache g') i = true) /\
    (forall i, is_cached (g_cache g) i = true -> is_cached (g_cache g') i = true) /\
    (g_pending g = [] -> g_pending g' = []).
  Proof.
    revert g req; induction l as [|b l IH]; cbn; intros g req I C.
    - intros [= <-]. rewrite app_nil_r. split; [auto|]. split; [intros i []|]. auto.
    - unfold generate_batch. destruct (register ts g b) as [g1| |] eqn:E; try discriminate.
      destruct (generate_pending _ _ _ _ g1) as [g2| |] eqn:E2; try discriminate. intros H.
      destruct (register_grows ts mentions _ _ _ E) as [G Cb].
      assert (I1 : inv ts g1) by (eapply inv_grows; eauto).
      assert (C1 : closed fixed (req ++ b) g1) by (eapply register_closed; eauto).
      assert (I2 : inv ts g2) by (eapply pending_inv; eauto).
      assert (C2 : closed fixed (req ++ b) g2) by exact (pending_closed fixed _ _ _ _ I1 C1 E2).
      assert (M : forall i, is_cached (g_cache g1) i = true -> is_cached (g_cache g2) i = true).
      { clear -E2. revert g1 E2. generalize (S (length ts)). intros fuel.
        induction fuel; cbn; intros g; destruct (g_pending g) eqn:P; try discriminate.
        - intros [= <-]; auto.
        - intros [= <-]; auto.
        - destruct (generate_intern _ _ _ _ _) as [g3| |] eqn:E; try discriminate.
          intros H i Hi. eapply IHfuel; [exact H|]. unfold generate_intern in E.
          destruct (do_uses _ _ _ _) as [[g4 fs]| |] eqn:D; try discriminate. injection E as <-.
          cbn. apply (gr_cached _ _ _ (proj1 (do_uses_spec _ _ _ _ _ _ (wf_all ts flags mentions _) D))). auto. }
      destruct (IH _ _ I2 C2 H) as (A1 & A2 & A3 & A4). rewrite app_assoc. split; [auto|split; [|split]].
      + intros i. rewrite in_app_iff. intros [X|X]; [|auto]. apply A3, M, Cb; auto.
      + intros i X. apply A3, M. apply (gr_cached _ _ _ G). auto.
      + intros _. apply A4. eapply pending_empty; eauto.
  Qed.

  Lemma new_closed fixed : closed fixed [] (gen_new fixed).
  Proof.
    assert (K : forall j, is_cached (g_cache (gen_new fixed)) j = true <-> In j fixed).
    { intros j. rewrite is_cached_key, contains_in. cbn. rewrite map_map. cbn. rewrite map_id. apply nodup_In. }
    split; unfold order; cbn.
    - intros j J. apply K in J. auto.
    - intros j J. split; [apply K; auto|auto].
    - intros a b (fs & f & [] & _).
    - tauto.
  Qed.

  Lemma generate_closed fixed calls out :
    generate ts flags mentions fixed calls = Ok out ->
    (forall a b, names out a b -> In b (map fst out) \/ In b fixed) /\
    (forall i, In i (concat calls) -> In i (map fst out) \/ In i fixed) /\
    (forall i, In i fixed -> ~ In i (map fst out)) /\
    (forall i, In i (map fst out) -> lookup i ts <> None /\ (In i (concat calls) \/ exists a, names out a i)).
  Proof.
    unfold generate. destruct (generate_batches _ _ _ _ _) as [g| |] eqn:E; try discriminate. intros [= <-].
    assert (I0 : inv ts (gen_new fixed)) by (apply new_inv; assumption).
    assert (I : inv ts g) by (eapply batches_inv; eauto).
    destruct (batches_closed fixed [] _ _ _ I0 (new_closed fixed) E) as ([C F M R] & A & _ & P).
    specialize (P eq_refl). unfold order in *. rewrite P, app_nil_r in *. cbn in R.
    split; [|split; [|split]].
    - intros a b H. apply C. eauto.
    - intros i Hi. apply C. auto.
    - intros i Hi. apply F. auto.
    - intros i Hi. split; [|auto]. apply (iv_known _ _ I). unfold order. rewrite in_app_iff. auto.
  Qed.

  (** * Elements that lead back are boxed *)
  Lemma any_box_true f l i : (forall x, In x l -> f x <> None) -> In i l -> f i = Some true -> any_box f l = Some true.
  Proof.
    induction l as [|x l IH]; cbn; intros H I E; [destruct I|]. destruct I as [->|I].
    - rewrite E. reflexivity.
    - pose proof (H x (or_introl eq_refl)). destruct (f x) as [[]|]; [auto| |congruence]. apply IH; auto.
  Qed.

  Lemma leads_known k under i : leads ts k under i -> lookup i ts <> None /\ k i.
  Proof. intros []; split; auto; congruence. Qed.

  Lemma need_box_leads c under i : leads ts (fun t => is_cached c t = true) under i ->
    forall fuel reach, incl under reach -> left_over reach < fuel -> need_box ts fuel reach c i = Some true.
  Proof.
    assert (D : forall i t ty, lookup i ts = Some ty -> is_cached c i = true -> In t (box_targets (m_variant ty)) ->
      (forall fuel reach, incl under reach -> left_over reach < fuel -> need_box ts fuel reach c t = Some true) ->
      forall fuel reach, incl under reach -> left_over reach < fuel -> need_box ts fuel reach c i = Some true).
    { clear i. intros i t ty L C T IH [|fuel] reach U Lf; [lia|]. cbn. rewrite L, C.
      destruct (contains i reach) eqn:R; [reflexivity|].
      assert (L' : left_over (i :: reach) < fuel).
      { enough (left_over (i :: reach) < left_over reach) by lia. unfold left_over.
        apply (filter_less _ _ _ i).
        - intros y. rewrite !negb_true_iff. cbn. intros Y. apply orb_false_iff in Y. tauto.
        - apply lookup_key. congruence.
        - rewrite R. reflexivity.
        - cbn. destruct (tident_eq_dec i i); [reflexivity|congruence]. }
      apply any_box_true with t; [|exact T|].
      - intros x _. apply need_box_ends. exact L'.
      - apply IH; [|exact L']. intros y Y. right. auto. }
    induction 1 as [i K C U|i ty x L C V O _ IH|i ty x u L C V I _ IH|i ty x e t L C V I NP T _ IH].
    - intros [|fuel] reach R Lf; [lia|]. apply need_box_reached; auto.
    - eapply D; eauto. rewrite V. cbn. rewrite O. cbn. auto.
    - eapply D; eauto. rewrite V. cbn. apply in_map. exact I.
    - eapply D; eauto. rewrite V. cbn. apply in_flat_map. exists e. split; [exact I|].
      unfold variant_uses. rewrite T. destruct (ev_use e); cbn; try congruence; auto.
  Qed.

  Lemma leads_mono (k k' : tident -> Prop) under i : (forall t, k t -> k' t) -> leads ts k under i -> leads ts k' under i.
  Proof.
    intros M. induction 1; [apply leads_here; auto|eapply leads_reference; eauto|eapply leads_union; eauto|
      eapply leads_variant; eauto].
  Qed.

  Lemma do_uses_boxed reach l g g' fs f :
    (forall u, In u l -> wf_use u) -> do_uses ts reach g l = Ok (g', fs) -> In f fs -> f_element f = true ->
    leads ts (fun t => is_cached (g_cache g) t = true) reach (f_target f) -> f_inline f = false.
  Proof.
    revert g g' fs; induction l as [|u l IH]; cbn; intros g g' fs W.
    - intros [= <- <-] [].
    - destruct (do_use ts reach g u) as [[g1 f1]| |] eqn:E1; try discriminate.
      destruct (do_uses ts reach g1 l) as [[g2 fs']| |] eqn:E2; try discriminate. intros [= <- <-] I El Ld.
      assert (W1 := W u (or_introl eq_refl)).
      destruct (do_use_spec _ _ _ _ _ _ W1 E1) as (G1 & _ & T1 & _).
      destruct I as [<-|I].
      + unfold do_use in E1. destruct (us_ask u) eqn:A.
        * destruct (get_or_create ts g (us_target u)); try discriminate. injection E1 as <- <-.
          cbn in *. specialize (W1 El). congruence.
        * destruct (get_or_create ts g (us_target u)); try discriminate. injection E1 as <- <-.
          cbn in *. specialize (W1 El). congruence.
        * rewrite <- T1 in E1. assert (B := need_box_leads _ _ _ Ld (S (S (length ts))) reach (incl_refl _)).
          specialize (B ltac:(pose proof (left_le reach); lia)).
          destruct (if by_value then _ else _) as [boxed|] eqn:Bx; [|discriminate].
          destruct (get_or_create ts g (f_target f1)); try discriminate. injection E1 as <- Ef.
          rewrite <- Ef in *. cbn in El |- *. specialize (W1 El). assert (us_inline u = by_value) by congruence.
          subst by_value. destruct (us_inline u); [|reflexivity]. cbn in B, Bx. rewrite <- Ef in Bx. cbn in Bx.
          cbn. enough (boxed = true) by (subst; reflexivity). congruence.
      + apply (IH _ _ _ (fun u I => W u (or_intror I)) E2 I El). eapply leads_mono; [|exact Ld].
        intros t. apply (gr_cached _ _ _ G1).
  Qed.

  Lemma intern_boxed g i g' done fs f :
    generate_intern ts flags mentions g i = Ok g' -> g_done g' = done ++ [(i, fs)] -> In f fs -> f_element f = true ->
    leads ts (fun t => is_cached (g_cache g) t = true) (get_reachable g i) (f_target f) -> f_inline f = false.
  Proof.
    unfold generate_intern. destruct (do_uses _ _ _ _) as [[g1 fs1]| |] eqn:E; try discriminate. intros [= <-].
    cbn. intros D. apply app_inj_tail in D. destruct D as [_ [= <-]].
    eapply do_uses_boxed; eauto. apply wf_all.
  Qed.

  (** * The fields of a type *)
  Definition fields_of (p : tident * list field) : Prop :=
    map f_target (snd p) = map us_target (all_uses ts flags mentions (fst p)).

  Lemma pending_fields fuel g g' : Forall fields_of (g_done g) ->
    generate_pending ts flags mentions fuel g = Ok g' -> Forall fields_of (g_done g').
  Proof.
    revert g; induction fuel; cbn; intros g I; destruct (g_pending g) eqn:P; try discriminate.
    - intros [= <-]; auto.
    - intros [= <-]; auto.
    - destruct (generate_intern _ _ _ _ _) as [g1| |] eqn:E; try discriminate. apply IHfuel.
      unfold generate_intern in E. destruct (do_uses _ _ _ _) as [[g2 fs]| |] eqn:E2; try discriminate.
      injection E as <-. cbn. destruct (do_uses_spec _ _ _ _ _ _ (wf_all _ _ _ t) E2) as (G & _ & T & _).
      rewrite (gr_done _ _ _ G). apply Forall_app. split; [exact I|]. constructor; [exact T|constructor].
  Qed.

  Lemma batches_fields l g g' : Forall fields_of (g_done g) ->
    generate_batches ts flags mentions g l = Ok g' -> Forall fields_of (g_done g').
  Proof.
    revert g; induction l as [|b l IH]; cbn; intros g I.
    - intros [= <-]; auto.
    - unfold generate_batch. destruct (register ts g b) as [g1| |] eqn:E; try discriminate.
      destruct (generate_pending _ _ _ _ g1) as [g2| |] eqn:E2; try discriminate. apply IH.
      eapply pending_fields; [|exact E2]. destruct (register_grows ts mentions _ _ _ E) as [G _].
      rewrite (gr_done _ _ _ G). exact I.
  Qed.

  Lemma occurs_none min max : from_occurs min max = ONone <-> ~ (max <> Bounded 0 \/ min <> 0).
  Proof.
    unfold from_occurs. destruct min as [|[|min]], max as [|[|[|max]]]; cbn [Nat.eqb];
      repeat match goal with |- context [if ?b then _ else _] => destruct b end;
      (split; [try discriminate; intros _ [A|A]; congruence|]); intros H; try reflexivity;
      exfalso; apply H; (now left) || (right; discriminate).
  Qed.

  Lemma element_targets force d es j :
    In j (map us_target (flat_map (element_uses force d) es)) <->
    exists e mode, In e es /\ (el_max e <> Bounded 0 \/ el_min e <> 0) /\ el_variant e = EVType j mode.
  Proof.
    rewrite in_map_iff. split.
    - intros (u & <- & I). apply in_flat_map in I. destruct I as (e & Ie & I). unfold element_uses in I.
      destruct (occurs_none (el_min e) (el_max e)) as [_ N].
      exists e. destruct (from_occurs (el_min e) (el_max e)) eqn:O; [destruct I| | | |];
        (destruct (el_variant e) as [| |t mode]; [destruct I|destruct I|]; destruct I as [<-|[]]; exists mode;
         split; [exact Ie|]; split; [|reflexivity];
         destruct (el_max e) as [|[|?]]; [left; discriminate| |left; discriminate];
         destruct (el_min e); [discriminate|right; discriminate]).
    - intros (e & mode & Ie & C & V).
      set (by_value := negb force && d && is_direct (from_occurs (el_min e) (el_max e))).
      exists (Use j (AskElement by_value) by_value true). split; [reflexivity|]. apply in_flat_map. exists e. split; [exact Ie|].
      unfold element_uses, by_value. rewrite V. destruct (from_occurs (el_min e) (el_max e)) eqn:O; [|left; reflexivity..].
      apply occurs_none in O. contradiction.
  Qed.

  Lemma attribute_targets l j :
    In j (map us_target (flat_map attribute_uses l)) <->
    exists a, In a l /\ at_use a <> UseProhibited /\ at_variant a = AVType j.
  Proof.
    rewrite in_map_iff. split.
    - intros (u & <- & I). apply in_flat_map in I. destruct I as (a & Ia & I). exists a. unfold attribute_uses in I.
      destruct (at_use a), (at_variant a); cbn in I; try tauto; destruct I as [<-|[]];
        (split; [exact Ia|]; split; [discriminate|reflexivity]).
    - intros (a & Ia & U & V). exists (Use j AskPlain true false). split; [reflexivity|]. apply in_flat_map.
      exists a. split; [exact Ia|]. unfold attribute_uses. rewrite V. destruct (at_use a); cbn; auto; congruence.
  Qed.

  Lemma uses_refers v j : In j (map us_target (uses ts flags v)) <-> refers ts v j.
  Proof.
    assert (G : forall g, In j (map us_target (struct_uses flags OSingle [] (gr_elements g))) <->
      exists e mode, In e (gr_elements g) /\ (el_max e <> Bounded 0 \/ el_min e <> 0) /\ el_variant e = EVType j mode).
    { intros g. unfold struct_uses. cbn [flat_map app]. apply element_targets. }
    assert (Gc : forall g, In j (map us_target (choice_uses flags OSingle [] (gr_elements g))) <->
      exists e mode, In e (gr_elements g) /\ (el_max e <> Bounded 0 \/ el_min e <> 0) /\ el_variant e = EVType j mode).
    { intros g. unfold choice_uses. cbn [flat_map app]. apply element_targets. }
    assert (NE : forall v, elements_of ts v = [] -> forall e, ~ In e (elements_of ts v)).
    { intros w -> e []. }
    destruct v as [x|b|n|x|x|x|g|g|g|c|x]; cbn [uses].
    - rewrite map_map. cbn [us_target]. rewrite in_map_iff. split.
      + intros (u & <- & I). constructor. exact I.
      + intros H. inversion H; subst; [exfalso; eapply NE; eauto; reflexivity|eauto].
    - split; [intros []|]. intros H. inversion H; subst. exfalso; eapply NE; eauto; reflexivity.
    - split; [intros []|]. intros H. inversion H; subst. exfalso; eapply NE; eauto; reflexivity.
    - cbn [map us_target In]. split.
      + intros [<-|[]]. constructor.
      + intros H. inversion H; subst; [exfalso; eapply NE; eauto; reflexivity|auto].
    - rewrite in_map_iff. split.
      + intros (u & <- & I). apply in_flat_map in I. destruct I as (e & Ie & I). unfold variant_uses in I.
        destruct (ev_use e) eqn:U, (ev_type e) eqn:T; cbn in I; try tauto; destruct I as [<-|[]];
          (eapply refers_variant; [exact Ie|congruence|exact T]).
      + intros H. inversion H as [v e t mode I| | | | | |x' e t Ie U T|]; subst; [exfalso; eapply NE; eauto; reflexivity|].
        exists (Use j (AskValue true) true false). split; [reflexivity|]. apply in_flat_map. exists e.
        split; [exact Ie|]. unfold variant_uses. rewrite T. destruct (ev_use e); cbn; auto; congruence.
    - rewrite map_map. cbn [us_target]. rewrite in_map_iff. split.
      + intros (u & <- & I). constructor. exact I.
      + intros H. inversion H; subst; [exfalso; eapply NE; eauto; reflexivity|eauto].
    - rewrite G. split; [intros (e & mode & I & C & V); eapply refers_element; eauto|].
      intros H. inversion H; subst. eauto 6.
    - rewrite Gc. split; [intros (e & mode & I & C & V); eapply refers_element; eauto|].
      intros H. inversion H; subst. eauto 6.
    - rewrite G. split; [intros (e & mode & I & C & V); eapply refers_element; eauto|].
      intros H. inversion H; subst. eauto 6.
    - assert (A : forall es, elements_of ts (VComplex c) = es ->
        (forall i v, cx_content c = Some i -> option_map m_variant (get_resolved_type ts i) = Some v ->
           match v with VAll _ | VSequence _ | VChoice _ | VDynamic _ | VComplex _ => True | _ => False end) ->
        ((exists a, In a (cx_attrs c) /\ at_use a <> UseProhibited /\ at_variant a = AVType j) \/
         (exists e mode, In e es /\ (el_max e <> Bounded 0 \/ el_min e <> 0) /\ el_variant e = EVType j mode)) <->
        refers ts (VComplex c) j).
      { intros es Es NC. split.
        - intros [(a & I & U & V)|(e & mode & I & C & V)]; [eapply refers_attribute; eauto|].
          eapply refers_element; eauto. rewrite Es. exact I.
        - intros H. inversion H as [v e t mode I C V|c' a t I U V|c' i v C R NV| | | | |]; subst.
          + right. eauto 6.
          + left. eauto.
          + specialize (NC _ _ C R). destruct v; tauto. }
      unfold complex_uses. cbn [elements_of] in A. destruct (cx_content c) as [i|] eqn:C.
      + destruct (option_map m_variant (get_resolved_type ts i)) as [v|] eqn:R.
        * assert (S : (match v with VAll _ | VSequence _ | VChoice _ | VDynamic _ | VComplex _ => False | _ => True end) ->
            In j (map us_target (Use i (AskValue (is_direct (from_occurs (cx_min c) (cx_max c))))
              (is_direct (from_occurs (cx_min c) (cx_max c))) false :: flat_map attribute_uses (cx_attrs c))) <->
            refers ts (VComplex c) j).
          { intros NV. cbn [map us_target In]. rewrite attribute_targets. split.
            - intros [<-|(a & I & U & V)]; [eapply refers_content; eauto|eapply refers_attribute; eauto].
            - intros H. inversion H as [v' e t mode I Ce V|c' a t I U V|c' i' v' C' R' NV'| | | | |]; subst.
              + cbn [elements_of] in I. rewrite C, R in I. destruct v; destruct I || destruct NV.
              + right. eauto.
              + left. congruence. }
          destruct v; try (apply S; exact Logic.I).
          all: unfold struct_uses, choice_uses; rewrite map_app, in_app_iff, attribute_targets, element_targets;
            apply A; [reflexivity|]; intros ? ? [= <-] E; rewrite R in E; injection E as <-; exact Logic.I.
        * unfold struct_uses. rewrite map_app, in_app_iff, attribute_targets, element_targets.
          apply A; [reflexivity|]. intros ? ? [= <-] E. congruence.
      + unfold struct_uses. rewrite map_app, in_app_iff, attribute_targets, element_targets.
        apply A; [reflexivity|]. intros ? ? [=].
    - cbn [map us_target In]. split.
      + intros [<-|[]]. constructor.
      + intros H. inversion H; subst; [exfalso; eapply NE; eauto; reflexivity|auto].
  Qed.

  Lemma generate_faithful fixed calls out a ty :
    generate ts flags mentions fixed calls = Ok out -> In a (map fst out) -> lookup a ts = Some ty ->
    forall b, names out a b <-> In b (mentions a) \/ refers ts (m_variant ty) b.
  Proof.
    intros E A L b. pose proof (gen_nodup _ _ _ E) as ND. revert E. unfold generate.
    destruct (generate_batches _ _ _ _ _) as [g| |] eqn:E; try discriminate. intros [= <-].
    assert (F := batches_fields _ _ _ (Forall_nil _ : Forall fields_of (g_done (gen_new fixed))) E).
    rewrite Forall_forall in F.
    assert (X : forall fs, In (a, fs) (g_done g) ->
      In b (map f_target fs) <-> In b (mentions a) \/ refers ts (m_variant ty) b).
    { intros fs I. rewrite (F _ I). cbn [fst]. unfold all_uses. rewrite L, map_app, in_app_iff, map_map, uses_refers.
      cbn [us_target]. rewrite map_id. reflexivity. }
    split.
    - intros (fs & f & I & If & <-). apply (X _ I). apply in_map. exact If.
    - intros H. apply in_map_iff in A. destruct A as ((a', fs) & <- & I). apply (X _ I) in H.
      apply in_map_iff in H. destruct H as (f & T & If). exists fs, f. auto.
  Qed.
End Short.
