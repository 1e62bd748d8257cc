(** Proofs about collected namespaces. *)
From Verif Require Import CollectModel CollectSpec.

Lemma get_in {V} k (l : list (nat * V)) v : get k l = Some v -> In (k, v) l.
Proof.
  induction l as [|[k' v'] l IH]; cbn; [discriminate|]. destruct (Nat.eqb_spec k k') as [->|N]; [intros [= ->]; now left|]. auto.
Qed.
Lemma in_get {V} k (l : list (nat * V)) v : In (k, v) l -> get k l <> None.
Proof.
  induction l as [|[k' v'] l IH]; cbn; [contradiction|]. destruct (Nat.eqb_spec k k') as [->|N]; [discriminate|]. intros [[= ? _]|H]; [now destruct N|auto].
Qed.
Lemma get_put ty v c x : get x (put ty v c) = if Nat.eqb x ty then Some v else get x c.
Proof. reflexivity. Qed.

Section Run.
  Variable g : cache -> nat -> cresult (cache * option shared).
  Variable add : gstate -> ns_key -> gstate.
  Variable merge : gstate -> shared -> gstate.
  Fixpoint run_actions (l : list action) (c : cache) (st : gstate) : cresult (cache * gstate) :=
    match l with
    | [] => CDone (c, st)
    | AAdd key :: l' => run_actions l' c (add st key)
    | AMerge ty' :: l' =>
        match g c ty' with
        | CDone (c, Some src) => run_actions l' c (merge st src)
        | CDone (c, None) => run_actions l' c st
        | CPanic => CPanic
        | CMore => CMore
        end
    end.
End Run.

Section Proofs.
  Variable xsi : option nat.
  Variable nil : bool.
  Variable ts : mtypes.
  Variable dns : option bytes.
  Local Notation items := (ts_items ts).
  Local Notation acts := (type_actions xsi nil ts dns).
  Local Notation value := (has_value ts).
  Local Notation gi := (get_impl xsi nil ts dns).
  Local Notation run fuel := (run_actions (gi fuel) (add_ns ts) (merge_state ts)).

  Lemma get_impl_eq fuel c ty : gi (S fuel) c ty =
    match get ty c with
    | Some v => CDone (c, v)
    | None =>
        match get ty items with
        | None => CPanic
        | Some t =>
            match run fuel (acts t) (put ty None c) SEmpty with
            | CDone (c, st) => let v := finish ty st in CDone (put ty (Some v) c, Some v)
            | CPanic => CPanic
            | CMore => CMore
            end
        end
    end.
  Proof. reflexivity. Qed.

  (** ** States *)
  Definition keys_of (st : gstate) : list ns_key :=
    match st with SEmpty => [] | SWeak l | SStrong l => l | SShared s => sh_keys s end.

  Lemma contains_spec k l : contains k l = true <-> In k l.
  Proof. unfold contains. destruct (in_dec key_eq_dec k l); split; intros H; try discriminate; auto; now destruct n. Qed.

  Definition keys_ok (l : list ns_key) : Prop := NoDup l /\ forall k, In k l -> value k = true.

  Lemma keys_snoc l k : keys_ok l -> ~ In k l -> value k = true -> keys_ok (l ++ [k]).
  Proof.
    intros [N V] H Hv. split.
    - apply (NoDup_Add (a := k) (l := l)); [|split; assumption]. rewrite <- (app_nil_r l) at 1. apply Add_app.
    - intros k' I. apply in_app_iff in I. destruct I as [I|[<-|[]]]; auto.
  Qed.

  Lemma insert_spec k l : keys_ok l -> keys_ok (insert_ns ts k l) /\
    forall k', In k' (insert_ns ts k l) <-> In k' l \/ k' = k /\ value k = true.
  Proof.
    intros K. unfold insert_ns. destruct (contains k l) eqn:C.
    - apply contains_spec in C. split; [exact K|]. intros k'. split; [now left|]. intros [H|[-> _]]; assumption.
    - assert (NC : ~ In k l) by (rewrite <- contains_spec, C; discriminate). destruct (value k) eqn:Hv.
      + split; [now apply keys_snoc|]. intros k'. rewrite in_app_iff. cbn. split; [intros [H|[<-|[]]]; auto|intros [H|[-> _]]; auto].
      + split; [exact K|]. intros k'. split; [now left|]. intros [H|[_ H]]; [assumption|discriminate].
  Qed.

  Lemma add_spec st k : keys_ok (keys_of st) -> keys_ok (keys_of (add_ns ts st k)) /\
    forall k', In k' (keys_of (add_ns ts st k)) <-> In k' (keys_of st) \/ k' = k /\ value k = true.
  Proof.
    intros K. pose proof (insert_spec k (keys_of st) K) as I. unfold insert_ns in I. destruct st as [|l|l|s]; cbn [add_ns keys_of] in *.
    - cbn [contains] in I. change (contains k []) with false in I. cbn iota in I. destruct (value k); exact I.
    - exact I.
    - exact I.
    - destruct (contains k (sh_keys s)); [exact I|]. destruct (value k); exact I.
  Qed.

  Lemma fold_add l : forall st, keys_ok (keys_of st) -> (forall k, In k l -> value k = true) ->
    keys_ok (keys_of (fold_left (add_ns ts) l st)) /\ forall k, In k (keys_of (fold_left (add_ns ts) l st)) <-> In k (keys_of st) \/ In k l.
  Proof.
    induction l as [|a l IH]; intros st K V; cbn [fold_left]; [split; [exact K|]; intros k; cbn; tauto|].
    destruct (add_spec st a K) as [K1 A]. destruct (IH (add_ns ts st a) K1 (fun k H => V k (or_intror H))) as [K2 B]. split; [exact K2|].
    intros k. rewrite B, A. cbn. split; [intros [[H|[-> _]]|H]; auto|intros [H|[<-|H]]; auto]. left. right. split; [reflexivity|]. apply V. now left.
  Qed.

  (** Only states that share a map of the cache are in use. *)
  Definition known (c : cache) (s : shared) : Prop := get (sh_owner s) c = Some (Some s).
  Definition st_ok (c : cache) (st : gstate) : Prop :=
    keys_ok (keys_of st) /\ match st with SShared s => known c s | _ => True end.

  Lemma add_ok c st k : st_ok c st -> st_ok c (add_ns ts st k).
  Proof.
    intros [K S]. split; [now apply add_spec|]. destruct st as [|l|l|s]; cbn [add_ns]; auto.
    - destruct (value k); exact I.
    - destruct (contains k (sh_keys s)); [exact S|]. destruct (value k); [exact I|exact S].
  Qed.
  Lemma fold_ok c l : forall st, st_ok c st -> st_ok c (fold_left (add_ns ts) l st).
  Proof. induction l as [|a l IH]; intros st S; cbn [fold_left]; [exact S|]. apply IH. now apply add_ok. Qed.

  Lemma merge_spec c st src : st_ok c st -> known c src -> keys_ok (sh_keys src) ->
    st_ok c (merge_state ts st src) /\ forall k, In k (keys_of (merge_state ts st src)) <-> In k (keys_of st) \/ In k (sh_keys src).
  Proof.
    intros S Ks K. destruct st as [|l|l|d]; cbn [merge_state].
    - split; [split; assumption|]. intros k. cbn. tauto.
    - split; [apply fold_ok; split; assumption|]. intros k. destruct (fold_add l (SShared src) K (proj2 (proj1 S))) as [_ F]. rewrite F. cbn. tauto.
    - split; [now apply fold_ok|]. apply fold_add; [apply S|apply K].
    - destruct (Nat.eqb_spec (sh_owner d) (sh_owner src)) as [E|N].
      + split; [exact S|]. destruct S as [_ S]. unfold known in *. rewrite E, Ks in S. injection S as ->. intros k. cbn. tauto.
      + split; [now apply fold_ok|]. apply fold_add; [apply S|apply K].
  Qed.

  (** ** The types behind a type *)
  Definition next (a b : nat) : Prop := exists t, get a items = Some t /\ In (AMerge b) (acts t).
  Inductive leads : nat -> nat -> Prop :=
  | leads_self a : leads a a
  | leads_next a b c : next a b -> leads b c -> leads a c.
  Lemma leads_trans a b c : leads a b -> leads b c -> leads a c.
  Proof. induction 1; auto. intros L. econstructor; eauto. Qed.
  Definition loops (a : nat) : Prop := exists b, next a b /\ leads b a.
  Definition tame (a : nat) : Prop := forall b, leads a b -> ~ loops b.
  Definition wants (x : nat) (k : ns_key) : Prop := value k = true /\ exists t, get x items = Some t /\ In (AAdd k) (acts t).

  Definition good (c : cache) : Prop :=
    (forall x s, get x c = Some (Some s) -> known c s /\ keys_ok (sh_keys s) /\
       (forall k, In k (sh_keys s) -> exists y, leads x y /\ wants y k) /\
       (tame x -> forall y k, leads x y -> wants y k -> In k (sh_keys s))).

  (** What a part of a run does to the cache. *)
  Record extends (from : nat -> Prop) (result : list ns_key) (c c' : cache) : Prop := {
    ex_keep : forall x, get x c <> None -> get x c' = get x c;
    ex_new : forall x, get x c = None -> get x c' <> None ->
      (exists a, from a /\ leads a x) /\ (exists s, get x c' = Some (Some s)) /\
      (forall y, next x y -> get y c' <> None) /\ (forall k, wants x k -> In k result) /\ get x items <> None
  }.

  Definition above (c : cache) (ty : nat) : Prop := forall p, get p c = Some None -> exists b, next p b /\ leads b ty.

  Lemma cached_dec (x : nat) (c : cache) : get x c = None \/ get x c <> None.
  Proof. destruct (get x c); [right; discriminate|now left]. Qed.

  Lemma extends_refl from r c : extends from r c c.
  Proof. constructor; [reflexivity|]. intros x H H'. contradiction. Qed.

  Lemma extends_trans (f1 f2 f : nat -> Prop) r1 r2 r c1 c2 c3 : (forall a, f1 a -> f a) -> (forall a, f2 a -> f a) ->
    (forall k, In k r1 -> In k r) -> (forall k, In k r2 -> In k r) ->
    extends f1 r1 c1 c2 -> extends f2 r2 c2 c3 -> extends f r c1 c3.
  Proof.
    intros F1 F2 R1 R2 [K1 N1] [K2 N2]. constructor.
    - intros x H. rewrite K2, K1; auto. rewrite K1; auto.
    - intros x H H'. destruct (cached_dec x c2) as [E|E].
      + destruct (N2 x E H') as ((a & Fa & L) & S & Y & W & G). split; [exists a; auto|]. split; [exact S|]. split; [exact Y|]. split; [|exact G]. auto.
      + destruct (N1 x H E) as ((a & Fa & L) & S & Y & W & G). split; [exists a; auto|]. rewrite (K2 x E). split; [exact S|]. split; [|split; [|exact G]]; auto.
        intros y Hy. specialize (Y y Hy). now rewrite K2.
  Qed.

  Lemma known_keep from r c c' s : extends from r c c' -> known c s -> known c' s.
  Proof. intros [K _] H. unfold known in *. rewrite K; rewrite H; [reflexivity|discriminate]. Qed.

  Lemma above_keep from r c c' ty : extends from r c c' -> above c ty -> above c' ty.
  Proof.
    intros [K N] A p H. destruct (cached_dec p c) as [E|E].
    - destruct (N p E) as (_ & (s & S) & _); [rewrite H; discriminate|]. rewrite H in S. discriminate.
    - apply A. rewrite <- (K p E). exact H.
  Qed.

  Definition call_ok (fuel : nat) : Prop := forall c ty c' v, good c -> above c ty -> gi fuel c ty = CDone (c', v) ->
    good c' /\ get ty c' = Some v /\ extends (eq ty) (match v with Some s => sh_keys s | None => [] end) c c' /\
    (get ty c = None -> v <> None).

  Lemma run_ok fuel : call_ok fuel -> forall l c st c' st', good c -> st_ok c st -> (forall b, In (AMerge b) l -> above c b) ->
    run fuel l c st = CDone (c', st') ->
    good c' /\ st_ok c' st' /\ extends (fun a => In (AMerge a) l) (keys_of st') c c' /\
    (forall b, In (AMerge b) l -> get b c' <> None) /\
    (forall k, In k (keys_of st) -> In k (keys_of st')) /\
    (forall k, In (AAdd k) l -> value k = true -> In k (keys_of st')) /\
    (forall b y k, In (AMerge b) l -> tame b -> leads b y -> wants y k -> In k (keys_of st')) /\
    (forall k, In k (keys_of st') -> In k (keys_of st) \/ (In (AAdd k) l /\ value k = true) \/ exists b y, In (AMerge b) l /\ leads b y /\ wants y k).
  Proof.
    intros IH. induction l as [|[b|k0] l IHl]; intros c st c' st' G S A R; cbn [run_actions] in R.
    - injection R as <- <-. split; [exact G|]. split; [exact S|]. split; [apply extends_refl|]. cbn. repeat split; auto; intros; contradiction.
    - destruct (gi fuel c b) as [[c1 v]| |] eqn:E; try discriminate.
      destruct (IH c b c1 v G (A b (or_introl eq_refl)) E) as (G1 & V1 & X1 & Nn).
      assert (A1 : forall b', In (AMerge b') l -> above c1 b') by (intros b' I; apply (above_keep _ _ _ _ _ X1), A; now right).
      destruct v as [src|].
      + destruct (G1 b src V1) as (Ks & Kk & Snd & Tm).
        assert (S0 : st_ok c1 st). { destruct S as [S S']. split; [exact S|]. destruct st; auto. now apply (known_keep _ _ _ _ _ X1). }
        destruct (merge_spec c1 st src S0 Ks Kk) as [S1 M].
        destruct (IHl c1 (merge_state ts st src) c' st' G1 S1 A1 R) as (G2 & S2 & X2 & C2 & P2 & D2 & T2 & B2).
        assert (Sub : forall k, In k (sh_keys src) -> In k (keys_of st')) by (intros k H; apply P2, M; now right).
        split; [exact G2|]. split; [exact S2|]. split.
        { refine (extends_trans _ _ _ _ _ _ _ _ _ _ _ _ _ X1 X2); auto; [intros a <-; now left|intros a I; now right]. }
        split. { intros b' [[= <-]|I]; [|auto]. rewrite (ex_keep _ _ _ _ X2); rewrite V1; discriminate. }
        split. { intros k H. apply P2, M. now left. }
        split. { intros k [[=]|I]; auto. }
        split. { intros b' y k [[= <-]|I] T L W; [|eauto]. apply Sub. eapply Tm; eauto. }
        intros k H. destruct (B2 k H) as [H'|[[I Hv]|(b' & y & I & L & W)]].
        * apply M in H'. destruct H' as [H'|H']; [now left|]. right. right. destruct (Snd k H') as (y & L & W). exists b, y. repeat split; auto. now left. exact (proj1 W). exact (proj2 W).
        * right. left. split; [now right|exact Hv].
        * right. right. exists b', y. repeat split; auto. now right. exact (proj1 W). exact (proj2 W).
      + assert (c1 = c) as ->.
        { destruct fuel as [|fuel]; [discriminate|]. rewrite get_impl_eq in E. destruct (get b c) eqn:Gb; [now injection E as -> _|]. now destruct (Nn eq_refl). }
        destruct (IHl c st c' st' G S A1 R) as (G2 & S2 & X2 & C2 & P2 & D2 & T2 & B2).
        split; [exact G2|]. split; [exact S2|]. split.
        { refine (extends_trans _ _ _ _ _ _ _ _ _ _ _ _ _ X1 X2); auto; [intros a <-; now left|intros a I; now right|intros k []]. }
        split. { intros b' [[= <-]|I]; [|auto]. rewrite (ex_keep _ _ _ _ X2); rewrite V1; discriminate. }
        split; [exact P2|]. split. { intros k [[=]|I]; auto. }
        split. { intros b' y k [[= <-]|I] T L W; [|eauto]. exfalso. destruct (A b (or_introl eq_refl) b V1) as (n & Hn & Ln). apply (T b (leads_self b)). exists n. auto. }
        intros k H. destruct (B2 k H) as [H'|[[I Hv]|(b' & y & I & L & W)]]; [now left| |].
        * right. left. split; [now right|exact Hv].
        * right. right. exists b', y. repeat split; auto. now right. exact (proj1 W). exact (proj2 W).
    - destruct (add_spec st k0 (proj1 S)) as [_ M].
      destruct (IHl c (add_ns ts st k0) c' st' G (add_ok c st k0 S) (fun b H => A b (or_intror H)) R) as (G2 & S2 & X2 & C2 & P2 & D2 & T2 & B2).
      split; [exact G2|]. split; [exact S2|]. split.
      { destruct X2 as [K N]. constructor; [exact K|]. intros x H H'. destruct (N x H H') as ((a & I & L) & Z). split; [exists a; split; [now right|exact L]|exact Z]. }
      split. { intros b [[=]|I]; auto. }
      split. { intros k H. apply P2, M. now left. }
      split. { intros k [[= <-]|I] Hv; [|auto]. apply P2, M. now right. }
      split. { intros b y k [[=]|I]; eauto. }
      intros k H. destruct (B2 k H) as [H'|[[I Hv]|(b' & y & I & L & W)]].
      + apply M in H'. destruct H' as [H'|[-> Hv]]; [now left|]. right. left. split; [now left|exact Hv].
      + right. left. split; [now right|exact Hv].
      + right. right. exists b', y. repeat split; auto. now right. exact (proj1 W). exact (proj2 W).
  Qed.

  Lemma good_put_none c ty : get ty c = None -> good c -> good (put ty None c).
  Proof.
    intros N G x s H. rewrite get_put in H. destruct (Nat.eqb_spec x ty); [discriminate|]. destruct (G x s H) as (K & Z). split; [|exact Z].
    unfold known in *. rewrite get_put. destruct (Nat.eqb_spec (sh_owner s) ty) as [E|]; [|exact K]. rewrite E, N in K. discriminate.
  Qed.

  Lemma all_calls fuel : call_ok fuel.
  Proof.
    induction fuel as [|fuel IH]; intros c ty c' v G A E; [discriminate|]. rewrite get_impl_eq in E.
    destruct (get ty c) as [v0|] eqn:Gt.
    - injection E as <- <-. split; [exact G|]. split; [exact Gt|]. split; [apply extends_refl|]. discriminate.
    - destruct (get ty items) as [t|] eqn:It; [|discriminate].
      destruct (run fuel (acts t) (put ty None c) SEmpty) as [[c1 st]| |] eqn:R; try discriminate. injection E as <- <-.
      assert (Nx : forall b, In (AMerge b) (acts t) -> next ty b) by (intros b I; exists t; auto).
      assert (A0 : forall b, In (AMerge b) (acts t) -> above (put ty None c) b).
      { intros b I p H. rewrite get_put in H. destruct (Nat.eqb_spec p ty) as [Ep|N].
        - subst p. exists b. split; [auto|constructor].
        - destruct (A p H) as (n & Hn & L). exists n. split; [exact Hn|]. apply (leads_trans _ _ _ L). econstructor; [apply Nx, I|constructor]. }
      assert (S0 : st_ok (put ty None c) SEmpty). { split; [|exact I]. split; [constructor|intros k []]. }
      destruct (run_ok fuel IH _ _ _ _ _ (good_put_none c ty Gt G) S0 A0 R) as (G1 & [K1 S1] & X1 & C1 & _ & D1 & T1 & B1).
      assert (G1t : get ty c1 = Some None). { rewrite (ex_keep _ _ _ _ X1); rewrite get_put, Nat.eqb_refl; [reflexivity|discriminate]. }
      assert (FK : sh_keys (finish ty st) = keys_of st) by now destruct st.
      assert (Sound : forall k, In k (keys_of st) -> exists y, leads ty y /\ wants y k).
      { intros k H. destruct (B1 k H) as [[]|[[I Hv]|(b & y & I & L & W)]].
        - exists ty. split; [constructor|]. split; [exact Hv|]. exists t. auto.
        - exists y. split; [|exact W]. econstructor; eauto. }
      assert (Full : tame ty -> forall y k, leads ty y -> wants y k -> In k (keys_of st)).
      { intros T y k L W. inversion L as [a|a b y' Hn Ln]; subst.
        - destruct W as (Hv & t' & It' & I). rewrite It in It'. injection It' as <-. auto.
        - destruct Hn as (t' & It' & I). rewrite It in It'. injection It' as <-. apply (T1 b y k I); auto.
          intros z Lz. apply T. econstructor; [apply Nx, I|exact Lz]. }
      assert (Own : known (put ty (Some (finish ty st)) c1) (finish ty st)).
      { unfold known. rewrite get_put. destruct st as [|l|l|s]; cbn [finish sh_owner]; rewrite ?Nat.eqb_refl; auto.
        destruct (Nat.eqb_spec (sh_owner s) ty) as [Eo|_]; [|exact S1]. unfold known in S1. rewrite Eo, G1t in S1. discriminate. }
      split.
      { intros x s H. rewrite get_put in H. destruct (Nat.eqb_spec x ty) as [->|N].
        - injection H as <-. rewrite FK. split; [exact Own|]. split; [exact K1|]. split; [exact Sound|exact Full].
        - destruct (G1 x s H) as (K & Z). split; [|exact Z]. unfold known in *. rewrite get_put.
          destruct (Nat.eqb_spec (sh_owner s) ty) as [Eo|]; [|exact K]. rewrite Eo, G1t in K. discriminate. }
      split. { now rewrite get_put, Nat.eqb_refl. }
      split; [|discriminate]. rewrite FK. constructor.
      + intros x H. rewrite get_put. destruct (Nat.eqb_spec x ty) as [->|N]; [now rewrite Gt in H|].
        rewrite (ex_keep _ _ _ _ X1); rewrite get_put; destruct (Nat.eqb_spec x ty); congruence.
      + intros x H H'. rewrite !get_put in *. destruct (Nat.eqb_spec x ty) as [->|N].
        * split; [exists ty; split; [reflexivity|constructor]|]. split; [eexists; reflexivity|]. split; [|split; [|congruence]].
          -- intros y (t' & It' & I). rewrite It in It'. injection It' as <-. rewrite get_put. destruct (Nat.eqb y ty); [discriminate|auto].
          -- intros k (Hv & t' & It' & I). rewrite It in It'. injection It' as <-. auto.
        * destruct (ex_new _ _ _ _ X1 x) as ((a & I & L) & S & Y & W & Gx); [rewrite get_put; destruct (Nat.eqb_spec x ty); congruence|exact H'|].
          split; [exists ty; split; [reflexivity|]; econstructor; eauto|]. split; [exact S|]. split; [|split; [exact W|exact Gx]].
          intros y Hy. rewrite get_put. destruct (Nat.eqb y ty); [discriminate|auto].
  Qed.

  (** ** Panics *)
  Lemma call_panic fuel : forall c ty, gi fuel c ty = CPanic -> exists y, leads ty y /\ get y items = None.
  Proof.
    induction fuel as [|fuel IH]; intros c ty E; [discriminate|]. rewrite get_impl_eq in E.
    destruct (get ty c); [discriminate|]. destruct (get ty items) as [t|] eqn:It; [|exists ty; split; [constructor|exact It]].
    destruct (run fuel (acts t) (put ty None c) SEmpty) as [[c1 st]| |] eqn:R; try discriminate.
    assert (X : exists b y, In (AMerge b) (acts t) /\ leads b y /\ get y items = None).
    { clear - IH R. revert R. generalize (put ty None c), SEmpty. induction (acts t) as [|[b|k] l IHl]; cbn [run_actions]; intros c0 st R; [discriminate| |].
      - destruct (gi fuel c0 b) as [[c1 [s|]]| |] eqn:E; try discriminate.
        + destruct (IHl _ _ R) as (b' & y & I & Z). exists b', y. split; [now right|exact Z].
        + destruct (IHl _ _ R) as (b' & y & I & Z). exists b', y. split; [now right|exact Z].
        + destruct (IH _ _ E) as (y & Z). exists b, y. split; [now left|exact Z].
      - destruct (IHl _ _ R) as (b' & y & I & Z). exists b', y. split; [now right|exact Z]. }
    destruct X as (b & y & I & L & N). exists y. split; [|exact N]. econstructor; [exists t; eauto|exact L].
  Qed.

  (** ** Enough steps *)
  Definition is_open (c : cache) (x : nat * mtype) : bool := match get (fst x) c with None => true | Some _ => false end.
  Definition opened (c : cache) : nat := length (filter (is_open c) items).

  Lemma filter_le {A} (p q : A -> bool) l : (forall x, In x l -> p x = true -> q x = true) -> length (filter p l) <= length (filter q l).
  Proof.
    induction l as [|a l IH]; intros H; cbn; [lia|]. assert (IH' := IH (fun x I => H x (or_intror I))).
    specialize (H a (or_introl eq_refl)). destruct (p a), (q a); cbn; try lia; now specialize (H eq_refl).
  Qed.
  Lemma filter_lt {A} (p q : A -> bool) l a : (forall x, In x l -> p x = true -> q x = true) -> In a l -> p a = false -> q a = true ->
    length (filter p l) < length (filter q l).
  Proof.
    induction l as [|b l IH]; intros H I P Q; [destruct I|]. cbn. assert (H' := fun x I => H x (or_intror I)).
    destruct I as [->|I].
    - rewrite P, Q. cbn. pose proof (filter_le p q l H'). lia.
    - specialize (IH H' I P Q). specialize (H b (or_introl eq_refl)). destruct (p b), (q b); cbn; try lia; now specialize (H eq_refl).
  Qed.

  Lemma keeps_open c c' : (forall x, get x c <> None -> get x c' <> None) -> opened c' <= opened c.
  Proof. intros H. apply filter_le. intros [x t] _. unfold is_open. cbn. specialize (H x). destruct (get x c), (get x c'); auto; try discriminate. now destruct H. Qed.

  Lemma call_keep fuel : forall c ty c' v, gi fuel c ty = CDone (c', v) -> forall x, get x c <> None -> get x c' <> None.
  Proof.
    induction fuel as [|fuel IH]; intros c ty c' v E x H; [discriminate|]. rewrite get_impl_eq in E.
    destruct (get ty c); [now injection E as <- _|]. destruct (get ty items) as [t|]; [|discriminate].
    destruct (run fuel (acts t) (put ty None c) SEmpty) as [[c1 st]| |] eqn:R; try discriminate. injection E as <- <-.
    rewrite get_put. destruct (Nat.eqb x ty); [discriminate|].
    assert (H0 : get x (put ty None c) <> None) by (rewrite get_put; destruct (Nat.eqb x ty); [discriminate|exact H]).
    clear H. revert R H0. generalize (put ty None c), SEmpty. induction (acts t) as [|[b|k] l IHl]; cbn [run_actions]; intros c0 st0 R H0.
    - now injection R as <- _.
    - destruct (gi fuel c0 b) as [[c2 [s|]]| |] eqn:E; try discriminate; apply (IHl _ _ R); eauto.
    - eauto.
  Qed.

  Lemma enough fuel : forall c ty, opened c < fuel -> gi fuel c ty <> CMore.
  Proof.
    induction fuel as [|fuel IH]; intros c ty F; [lia|]. rewrite get_impl_eq. destruct (get ty c) eqn:Gt; [discriminate|].
    destruct (get ty items) as [t|] eqn:It; [|discriminate].
    assert (O : opened (put ty None c) < fuel).
    { assert (opened (put ty None c) < opened c); [|lia]. apply (filter_lt _ _ _ (ty, t)).
      - intros [x u] _. unfold is_open. cbn [fst]. rewrite get_put. destruct (Nat.eqb x ty); [discriminate|auto].
      - now apply get_in.
      - unfold is_open. cbn [fst]. now rewrite get_put, Nat.eqb_refl.
      - unfold is_open. cbn [fst]. now rewrite Gt. }
    assert (X : run fuel (acts t) (put ty None c) SEmpty <> CMore).
    { revert O. generalize (put ty None c), SEmpty. induction (acts t) as [|[b|k] l IHl]; cbn [run_actions]; intros c0 st O; [discriminate| |auto].
      specialize (IH c0 b O). destruct (gi fuel c0 b) as [[c2 [s|]]| |] eqn:E; try discriminate; auto.
      - apply IHl. pose proof (keeps_open _ _ (call_keep _ _ _ _ _ E)). lia.
      - apply IHl. pose proof (keeps_open _ _ (call_keep _ _ _ _ _ E)). lia. }
    destruct (run fuel (acts t) (put ty None c) SEmpty) as [[c1 st]| |]; [discriminate|discriminate|]. now destruct X.
  Qed.

  Lemma opened_le c : opened c <= length items.
  Proof. unfold opened. induction items as [|a l IH]; cbn; [lia|]. destruct (is_open c a); cbn; lia. Qed.

  (** ** Calls *)
  Definition settled (c : cache) : Prop := good c /\ (forall x, get x c <> Some None) /\
    (forall x y, get x c <> None -> next x y -> get y c <> None) /\ (forall x, get x c <> None -> get x items <> None).

  Lemma settled_nil : settled [].
  Proof. split; [intros x s H; discriminate|]. repeat split; cbn; auto; discriminate. Qed.

  Lemma call_settled c ty : settled c ->
    (exists c' l, get_namespaces xsi nil ts dns c ty = CDone (c', l) /\ settled c' /\ (forall y, leads ty y -> get y items <> None) /\
       keys_ok l /\ (forall k, In k l -> exists y, leads ty y /\ wants y k) /\
       (tame ty \/ (forall x, get x c = None) -> forall y k, leads ty y -> wants y k -> In k l)) \/
    (get_namespaces xsi nil ts dns c ty = CPanic /\ exists y, leads ty y /\ get y items = None).
  Proof.
    intros (G & P & C & D). unfold get_namespaces. set (F := 2 + length items).
    assert (En : gi F c ty <> CMore) by (apply enough; pose proof (opened_le c); subst F; lia).
    destruct (gi F c ty) as [[c' v]| |] eqn:E.
    - left. assert (A : above c ty) by (intros p H; now apply P in H).
      destruct (all_calls F c ty c' v G A E) as (G' & V & X & Nn).
      assert (P' : forall x, get x c' <> Some None).
      { intros x H. destruct (cached_dec x c) as [N|N]; [|rewrite (ex_keep _ _ _ _ X x N) in H; now apply P in H].
        destruct (ex_new _ _ _ _ X x N) as (_ & (s & S) & _); [rewrite H; discriminate|]. rewrite H in S. discriminate. }
      assert (C' : forall x y, get x c' <> None -> next x y -> get y c' <> None).
      { intros x y H Hn. destruct (cached_dec x c) as [N|N].
        - destruct (ex_new _ _ _ _ X x N H) as (_ & _ & Y & _). auto.
        - assert (Ny := C x y N Hn). now rewrite (ex_keep _ _ _ _ X y Ny). }
      assert (D' : forall x, get x c' <> None -> get x items <> None).
      { intros x H. destruct (cached_dec x c) as [N|N]; [|auto]. now destruct (ex_new _ _ _ _ X x N H) as (_ & _ & _ & _ & Z). }
      destruct v as [s|]; [|now apply P' in V]. exists c', (sh_keys s). split; [reflexivity|]. split; [exact (conj G' (conj P' (conj C' D')))|].
      assert (R : forall y, leads ty y -> get y c' <> None).
      { assert (Z : get ty c' <> None) by (rewrite V; discriminate). intros y L. clear - Z L C'. induction L; eauto. }
      destruct (G' ty s V) as (Ks & Kk & Snd & Full).
      split; [auto|]. split; [exact Kk|]. split; [exact Snd|]. intros [T|N] y k L W; [eauto|].
      destruct (ex_new _ _ _ _ X y (N y) (R y L)) as (_ & _ & _ & Z & _). now apply Z.
    - right. split; [reflexivity|]. exact (call_panic _ _ _ E).
    - now destruct En.
  Qed.

  Definition exact_for (ty : nat) (l : list ns_key) : Prop := forall k, In k l <-> exists y, leads ty y /\ wants y k.
  Definition sound_for (ty : nat) (l : list ns_key) : Prop := NoDup l /\ forall k, In k l -> exists y, leads ty y /\ wants y k.

  Lemma calls tys : forall c, settled c ->
    (exists r, get_all xsi nil ts dns c tys = CDone r /\ (forall ty, In ty tys -> forall y, leads ty y -> get y items <> None) /\
       Forall2 (fun ty l => sound_for ty l /\ (tame ty -> exact_for ty l)) tys r /\
       match tys, r with ty :: _, l :: _ => (forall x, get x c = None) -> exact_for ty l | _, _ => True end) \/
    (get_all xsi nil ts dns c tys = CPanic /\ exists ty y, In ty tys /\ leads ty y /\ get y items = None).
  Proof.
    induction tys as [|ty tys IH]; intros c S; cbn [get_all].
    - left. exists []. split; [reflexivity|]. split; [intros ty []|]. split; [constructor|exact I].
    - destruct (call_settled c ty S) as [(c' & l & E & S' & Cm & Kk & Snd & Full)|(E & y & L & N)]; rewrite E.
      + destruct (IH c' S') as [(r & Er & Cr & F & _)|(Er & t & y & I & L & N)]; rewrite Er.
        * left. exists (l :: r). split; [reflexivity|]. split; [intros t [<-|I]; [exact Cm|exact (Cr t I)]|].
          split; [constructor; [|exact F]|].
          -- split; [split; [apply Kk|exact Snd]|]. intros T k. split; [apply Snd|]. intros (y & L & W). eauto.
          -- intros Z k. split; [apply Snd|]. intros (y & L & W). eauto.
        * right. split; [reflexivity|]. exists t, y. split; [now right|]. auto.
      + right. split; [reflexivity|]. exists ty, y. split; [now left|]. auto.
  Qed.
End Proofs.

(** ** The specification *)
Section Spec.
  Variable nil : bool.
  Variable ts : mtypes.
  Variable dns : option bytes.
  Local Notation acts := (type_actions (find_xsi ts) nil ts dns).

  Lemma is_namespace_spec ns m : is_namespace ns m = true <-> mm_namespace m = Some ns.
  Proof.
    unfold is_namespace. destruct (mm_namespace m) as [x|]; cbn; [|split; discriminate]. rewrite String.eqb_eq. split; [now intros ->|now intros [= ->]].
  Qed.

  Lemma find_module ns id : (exists m, find (fun x => is_namespace ns (snd x)) (ts_modules ts) = Some (id, m)) <-> module_of ts ns id.
  Proof.
    unfold module_of. induction (ts_modules ts) as [|[i m] l IH]; cbn [find].
    - split; [intros (m & H); discriminate|]. intros (b & m & a & H & _). destruct b; discriminate.
    - cbn [snd]. destruct (is_namespace ns m) eqn:E.
      + apply is_namespace_spec in E. split.
        * intros (m' & [= <- <-]). exists [], m, l. split; [reflexivity|]. split; [exact E|]. intros x [].
        * intros (b & m' & a & H & Hm & B). destruct b as [|x b]; [injection H as -> -> ->; eauto|]. injection H as <- _. now destruct (B _ (or_introl eq_refl)).
      + assert (E' : mm_namespace m <> Some ns) by (rewrite <- is_namespace_spec, E; discriminate). rewrite IH. split.
        * intros (b & m' & a & -> & Hm & B). exists ((i, m) :: b), m', a. split; [reflexivity|]. split; [exact Hm|]. intros x [<-|I]; auto.
        * intros (b & m' & a & H & Hm & B). destruct b as [|x b]; [injection H as -> -> _; contradiction|]. injection H as <- ->.
          exists b, m', a. split; [reflexivity|]. split; [exact Hm|]. intros y I. apply B. now right.
  Qed.

  Lemma xsi_spec b k : In (AAdd k) (add_xsi (find_xsi ts) b) <-> b = true /\ exists id, module_of ts xsi_ns id /\ k = KNormal id.
  Proof.
    unfold add_xsi, find_xsi. destruct b; [|split; [intros []|intros [H _]; discriminate]].
    destruct (find _ (ts_modules ts)) as [[i m]|] eqn:E; cbn.
    - split.
      + intros [[= <-]|[]]. split; [reflexivity|]. exists i. split; [|reflexivity]. apply find_module. eauto.
      + intros (_ & id & M & ->). apply find_module in M. destruct M as (m' & M). rewrite E in M. injection M as -> _. now left.
    - split; [intros []|]. intros (_ & id & M & _). apply find_module in M. destruct M as (m' & M). rewrite E in M. discriminate.
  Qed.
  Lemma xsi_merge x b ty : ~ In (AMerge ty) (add_xsi x b).
  Proof. unfold add_xsi. destruct b, x; cbn; intuition discriminate. Qed.

  Lemma merge_actions t b : In (AMerge b) (acts t) <-> mentions_type (mt_variant t) b.
  Proof.
    unfold type_actions. rewrite in_app_iff.
    assert (Z : ~ In (AMerge b) (if mt_qualified t then [AAdd (own_key ts dns t)] else [])) by (destruct (mt_qualified t); cbn; intuition discriminate).
    assert (Y : In (AMerge b) (variant_actions (find_xsi ts) nil ts (mt_variant t)) <-> mentions_type (mt_variant t) b); [|tauto].
    destruct (mt_variant t) as [l| |l|ty n|l|ds|k es|co ats|]; cbn [variant_actions mentions_type].
    - rewrite in_map_iff. split; [intros (x & [= ->] & I); exact I|eauto].
    - split; intros [].
    - rewrite in_flat_map. split; [|intros []]. intros (x & _ & I). destruct x as [id|ns]; cbn in I; [destruct I as [[=]|[]]|].
      destruct (find _ _) as [[i m]|]; cbn in I; [destruct I as [[=]|[]]|destruct I].
    - cbn [In]. pose proof (xsi_merge (find_xsi ts) (nil && n) b). split; [intros [[= ->]|I]; [reflexivity|contradiction]|intros ->; now left].
    - rewrite in_flat_map. split; [intros ([x|] & I & J); [destruct J as [[= ->]|[]]; exact I|destruct J]|]. intros I. exists (Some b). split; [exact I|now left].
    - rewrite in_app_iff, in_map_iff. pose proof (xsi_merge (find_xsi ts) (has_dynamic_types ds) b).
      split; [intros [(d & [= E] & I)|I]; [exists d; auto|contradiction]|]. intros (d & I & <-). left. exists d. auto.
    - rewrite in_flat_map. unfold element_actions. split.
      + intros (e & I & J). rewrite !in_app_iff in J. exists e. split; [exact I|].
        destruct J as [J|[J|J]]; [|now apply xsi_merge in J|now apply xsi_merge in J]. destruct (el_type e) as [x|]; [|destruct J]. destruct J as [[= ->]|[]]. reflexivity.
      + intros (e & I & E). exists e. split; [exact I|]. rewrite E. now left.
    - rewrite in_app_iff, in_flat_map. split.
      + intros [J|(a & _ & J)]; [|destruct (at_qualified a); cbn in J; intuition discriminate]. destruct co as [x|]; [|destruct J]. destruct J as [[= ->]|[]]. reflexivity.
      + intros ->. left. now left.
    - split; intros [].
  Qed.

  Lemma derived_elements_spec ds ty : In ty (derived_elements ds) <-> exists d, In d ds /\ de_key d = IdElement /\ de_type d = ty.
  Proof.
    unfold derived_elements. rewrite in_flat_map. split.
    - intros (d & I & J). destruct (de_key d) eqn:E; [destruct J| |destruct J]. destruct J as [<-|[]]. eauto.
    - intros (d & I & E & <-). exists d. split; [exact I|]. rewrite E. now left.
  Qed.

  Lemma dynamic_spec ds : has_dynamic_types ds = true <-> exists d, named_by_type ds d.
  Proof.
    unfold has_dynamic_types. rewrite existsb_exists. unfold named_by_type, is_dynamic, type_in. split.
    - intros (d & I & H). exists d. split; [exact I|]. destruct (de_key d); try discriminate. apply andb_prop in H. destruct H as [H1 H2].
      split; [reflexivity|]. split; [now destruct (de_concrete d)|]. intros d' I' K' E'. apply negb_true_iff in H2.
      assert (X : existsb (Nat.eqb (de_type d)) (derived_elements ds) = true); [|rewrite X in H2; discriminate].
      apply existsb_exists. exists (de_type d). split; [|apply Nat.eqb_refl]. apply derived_elements_spec. eauto.
    - intros (d & I & K & C & N). exists d. split; [exact I|]. rewrite K, C. cbn. apply negb_true_iff.
      destruct (existsb (Nat.eqb (de_type d)) (derived_elements ds)) eqn:X; [|reflexivity]. exfalso. apply existsb_exists in X.
      destruct X as (y & Iy & E). apply Nat.eqb_eq in E. subst y. apply derived_elements_spec in Iy. destruct Iy as (d' & I' & K' & E'). now apply (N d' I' K').
  Qed.

  Lemma own_spec t k : In (AAdd k) (if mt_qualified t then [AAdd (own_key ts dns t)] else []) <->
    mt_qualified t = true /\
    ((exists m ns, get (mt_ns t) (ts_modules ts) = Some m /\ mm_namespace m = Some ns /\ dns = Some ns /\ k = KDefault (mt_ns t)) \/
     (forall m ns, get (mt_ns t) (ts_modules ts) = Some m -> mm_namespace m = Some ns -> dns <> Some ns) /\ k = KNormal (mt_ns t)).
  Proof.
    destruct (mt_qualified t); [|split; [intros []|intros [H _]; discriminate]]. unfold own_key.
    assert (Q : forall P : Prop, (In (AAdd k) [AAdd (own_key ts dns t)] <-> P) <-> (k = own_key ts dns t <-> P)).
    { intros P. cbn. split; intros H; rewrite <- H; split; [intros ->; now left|intros [[= ->]|[]]; reflexivity|intros [[= ->]|[]]; reflexivity|intros ->; now left]. }
    apply Q. unfold own_key. clear Q. destruct (get (mt_ns t) (ts_modules ts)) as [m|].
    - destruct dns as [b|].
      + destruct (is_namespace b m) eqn:E.
        * apply is_namespace_spec in E. split; [intros ->; split; [reflexivity|]; left; eauto 6|]. intros [_ [(m' & ns & [= <-] & _ & _ & H)|[H _]]]; [exact H|]. now destruct (H m b eq_refl E).
        * assert (E' : mm_namespace m <> Some b) by (rewrite <- is_namespace_spec, E; discriminate).
          split; [intros ->; split; [reflexivity|]; right; split; [|reflexivity]; intros m' ns [= <-] H [= ->]; contradiction|].
          intros [_ [(m' & ns & [= <-] & H & [= ->] & _)|[_ H]]]; [contradiction|exact H].
      + split; [intros ->; split; [reflexivity|]; right; split; [discriminate|reflexivity]|]. intros [_ [(m' & ns & _ & _ & H & _)|[_ H]]]; [discriminate|exact H].
    - split; [intros ->; split; [reflexivity|]; right; split; [discriminate|reflexivity]|]. intros [_ [(m' & ns & H & _)|[_ H]]]; [discriminate|exact H].
  Qed.

  Lemma add_actions t k : In (AAdd k) (acts t) <-> calls_for nil ts dns t k.
  Proof.
    unfold type_actions. rewrite in_app_iff, own_spec.
    assert (Y : In (AAdd k) (variant_actions (find_xsi ts) nil ts (mt_variant t)) <->
      (exists id, writes_xsi nil (mt_variant t) /\ module_of ts xsi_ns id /\ k = KNormal id) \/
      (exists co ats a, mt_variant t = MComplex co ats /\ In a ats /\ at_qualified a = true /\ k = KNormal (at_ns a)) \/
      (exists l id, mt_variant t = MCustom l /\ In (CId id) l /\ k = KDefault id) \/
      (exists l ns id, mt_variant t = MCustom l /\ In (CNamespace ns) l /\ module_of ts ns id /\ k = KNormal id)).
    { destruct (mt_variant t) as [l| |l|ty n|l|ds|gk es|co ats|]; cbn [variant_actions writes_xsi].
      - split.
        + intros I. apply in_map_iff in I. destruct I as (x & H & _). discriminate.
        + intros [(id & [] & _)|[(c & a & x & H & _)|[(c & x & H & _)|(c & x & y & H & _)]]]; discriminate.
      - split; [intros []|]. intros [(id & [] & _)|[(c & a & x & H & _)|[(c & x & H & _)|(c & x & y & H & _)]]]; discriminate.
      - rewrite in_flat_map. split.
        + intros (x & I & J). destruct x as [id|ns]; cbn [custom_actions] in J.
          * destruct J as [[= <-]|[]]. right. right. left. eauto.
          * destruct (find _ _) as [[i m]|] eqn:E; [|destruct J]. destruct J as [[= <-]|[]]. right. right. right. exists l, ns, i.
            repeat split; auto. apply find_module. eauto.
        + intros [(id & [] & _)|[(c & a & x & H & _)|[(c & id & [= <-] & I & ->)|(c & ns & id & [= <-] & I & M & ->)]]]; [discriminate| |].
          * exists (CId id). split; [exact I|now left].
          * exists (CNamespace ns). split; [exact I|]. cbn [custom_actions]. apply find_module in M. destruct M as (m & ->). now left.
      - cbn [In]. split.
        + intros [[=]|I]. apply xsi_spec in I. destruct I as (B & id & M & ->). apply andb_prop in B. left. eauto.
        + intros [(id & [-> ->] & M & ->)|[(c & a & x & H & _)|[(c & x & H & _)|(c & x & y & H & _)]]]; try discriminate. right. apply xsi_spec. eauto.
      - rewrite in_flat_map. split.
        + intros ([x|] & _ & J); [destruct J as [[=]|[]]|destruct J].
        + intros [(id & [] & _)|[(c & a & x & H & _)|[(c & x & H & _)|(c & x & y & H & _)]]]; discriminate.
      - rewrite in_app_iff, xsi_spec, dynamic_spec. split.
        + intros [I|(D & id & M & ->)]; [apply in_map_iff in I; destruct I as (x & H & _); discriminate|]. left. eauto.
        + intros [(id & D & M & ->)|[(c & a & x & H & _)|[(c & x & H & _)|(c & x & y & H & _)]]]; try discriminate. right. eauto.
      - rewrite in_flat_map. unfold element_actions. split.
        + intros (e & I & J). rewrite !in_app_iff, !xsi_spec in J. left. destruct J as [J|[(B & id & M & ->)|(B & id & M & ->)]].
          * destruct (el_type e); cbn in J; intuition discriminate.
          * exists id. split; [|auto]. exists e. split; [exact I|]. left. now apply andb_prop in B.
          * exists id. split; [|auto]. exists e. split; [exact I|]. right. destruct gk; try discriminate. auto.
        + intros [(id & (e & I & W) & M & ->)|[(c & a & x & H & _)|[(c & x & H & _)|(c & x & y & H & _)]]]; try discriminate.
          exists e. split; [exact I|]. rewrite !in_app_iff, !xsi_spec. right. destruct W as [[-> ->]|[-> ->]]; [left|right]; eauto.
      - rewrite in_app_iff, in_flat_map. split.
        + intros [J|(a & I & J)]; [destruct co; cbn in J; intuition discriminate|]. destruct (at_qualified a) eqn:Q; [|destruct J]. destruct J as [[= <-]|[]].
          right. left. exists co, ats, a. auto.
        + intros [(id & [] & _)|[(c & a & x & [= <- <-] & I & Q & ->)|[(c & x & H & _)|(c & x & y & H & _)]]]; try discriminate.
          right. exists x. split; [exact I|]. rewrite Q. now left.
      - split; [intros []|]. intros [(id & [] & _)|[(c & a & x & H & _)|[(c & x & H & _)|(c & x & y & H & _)]]]; discriminate. }
    rewrite Y. split.
    - intros [[(id & W & M & ->)|[(c & a & x & H & I & Q & ->)|[(l & id & H & I & ->)|(l & ns & id & H & I & M & ->)]]]|(Q & [(m & ns & G & N & D & ->)|[N ->]])].
      + now apply calls_xsi.
      + eapply calls_attribute; eauto.
      + eapply calls_custom_id; eauto.
      + eapply calls_custom_ns; eauto.
      + eapply calls_default; eauto.
      + now apply calls_prefix.
    - intros [id W M|co ats a H I Q|l id H I|l ns id H I M|m ns Q G N D|Q N].
      + left. left. eauto.
      + left. right. left. eauto 7.
      + left. right. right. left. eauto.
      + left. right. right. right. eauto 8.
      + right. split; [exact Q|]. left. eauto 6.
      + right. split; [exact Q|]. right. auto.
  Qed.

  Lemma value_spec k : has_value ts k = true <-> declarable ts k.
  Proof.
    destruct k as [id|id]; cbn [has_value declarable]; destruct (get id (ts_modules ts)) as [m|].
    - unfold has_prefix_const, has_ns_const, mm_any_name. destruct (mm_namespace m) as [ns|] eqn:N.
      + destruct (mm_name m) as [a|] eqn:A; [|destruct (mm_prefix m) as [p|] eqn:P]; cbn; (split; [intros H; try discriminate; exists m, ns; repeat split; auto|intros (m' & ns' & [= <-] & _ & H); auto]).
        * left. congruence.
        * right. congruence.
        * destruct H; congruence.
      + cbn. split; [discriminate|]. intros (m' & ns' & [= <-] & H & _). congruence.
    - split; [discriminate|]. intros (m' & ns' & H & _). discriminate.
    - unfold has_ns_const. destruct (mm_namespace m) as [ns|] eqn:N; (split; [intros H; try discriminate; eauto|intros (m' & ns' & [= <-] & H); congruence]).
    - split; [discriminate|]. intros (m' & ns' & H & _). discriminate.
  Qed.

  Lemma next_spec a b : next (find_xsi ts) nil ts dns a b <-> mentions ts a b.
  Proof. split; intros (t & G & I); exists t; (split; [exact G|]); now apply merge_actions. Qed.
  Lemma leads_spec a b : leads (find_xsi ts) nil ts dns a b <-> reaches ts a b.
  Proof. split; induction 1; econstructor; eauto; now apply next_spec. Qed.
  Lemma wants_spec ty k : (exists y, leads (find_xsi ts) nil ts dns ty y /\ wants (find_xsi ts) nil ts dns y k) <-> needed nil ts dns ty k.
  Proof.
    unfold needed, wants. split.
    - intros (y & L & V & t & G & I). split; [now apply value_spec|]. exists y, t. split; [now apply leads_spec|]. split; [exact G|]. now apply add_actions.
    - intros (V & y & t & L & G & I). exists y. split; [now apply leads_spec|]. split; [now apply value_spec|]. exists t. split; [exact G|]. now apply add_actions.
  Qed.
  Lemma tame_spec a : (forall b, reaches ts a b -> ~ recursive ts b) -> tame (find_xsi ts) nil ts dns a.
  Proof. intros T b L (x & N & L'). apply (T b); [now apply leads_spec|]. exists x. split; [now apply next_spec|now apply leads_spec]. Qed.

  Lemma collected tys :
    (exists r, collect nil ts dns tys = CDone r /\ (forall ty, In ty tys -> complete ts ty) /\
       Forall2 (fun ty l => NoDup l /\ (forall k, In k l -> needed nil ts dns ty k) /\
         ((forall b, reaches ts ty b -> ~ recursive ts b) -> forall k, needed nil ts dns ty k -> In k l)) tys r /\
       match tys, r with ty :: _, l :: _ => forall k, needed nil ts dns ty k -> In k l | _, _ => True end) \/
    (collect nil ts dns tys = CPanic /\ exists ty, In ty tys /\ ~ complete ts ty).
  Proof.
    unfold collect. destruct (calls (find_xsi ts) nil ts dns tys [] (settled_nil _ _ _ _)) as [(r & E & C & F & H)|(E & ty & y & I & L & N)].
    - left. exists r. split; [exact E|]. split; [intros ty I y L; apply (C ty I y); now apply leads_spec|]. split.
      + clear - F. induction F as [|ty l tys r [[N S] T] F IH]; constructor; auto. split; [exact N|]. split; [intros k I; now apply wants_spec, S|].
        intros R k K. apply (T (tame_spec ty R)). now apply wants_spec.
      + destruct tys as [|ty tys], r as [|l r]; auto. intros k K. apply H; [reflexivity|]. now apply wants_spec.
    - right. split; [exact E|]. exists ty. split; [exact I|]. intros C. apply (C y); [|exact N]. now apply leads_spec.
  Qed.
End Spec.
