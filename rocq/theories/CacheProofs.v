From Verif Require Import CacheModel CacheSpec.

(** * Maps *)
Lemma get_upd {V} k d (f : V -> V) m k' :
  get k' (upd k d f m) =
  if Nat.eqb k' k then Some (f (match get k m with Some v => v | None => d end)) else get k' m.
Proof.
  induction m as [|[a v] m IH]; cbn.
  - destruct (Nat.eqb_spec k' k); reflexivity.
  - destruct (Nat.eqb_spec k a) as [->|N]; cbn.
    + destruct (Nat.eqb_spec k' a); reflexivity.
    + rewrite IH. destruct (Nat.eqb_spec k' a) as [E|E]; destruct (Nat.eqb_spec k' k) as [F|F]; try reflexivity.
      congruence.
Qed.

Lemma get_alter {V} k (f : V -> V) m k' :
  get k' (alter k f m) = if Nat.eqb k' k then option_map f (get k m) else get k' m.
Proof.
  induction m as [|[a v] m IH]; cbn.
  - destruct (Nat.eqb k' k); reflexivity.
  - destruct (Nat.eqb_spec k a) as [->|N]; cbn.
    + destruct (Nat.eqb_spec k' a); reflexivity.
    + rewrite IH. destruct (Nat.eqb_spec k' a) as [->|]; [|reflexivity].
      destruct (Nat.eqb_spec a k); congruence.
Qed.

Lemma upd_keys {V} k d (f : V -> V) m x :
  In x (map fst (upd k d f m)) <-> x = k \/ In x (map fst m).
Proof.
  induction m as [|[a v] m IH]; cbn; [intuition|].
  destruct (Nat.eqb_spec k a) as [->|N]; cbn; [intuition|]. rewrite IH. intuition.
Qed.

Lemma upd_nodup {V} k d (f : V -> V) m : NoDup (map fst m) -> NoDup (map fst (upd k d f m)).
Proof.
  induction m as [|[a v] m IH]; cbn; intros H; [repeat constructor; auto|].
  inversion H; subst. destruct (Nat.eqb_spec k a) as [->|N]; cbn; constructor; auto.
  rewrite upd_keys. intros [|]; [congruence|auto].
Qed.

Lemma alter_keys {V} k (f : V -> V) m : map fst (alter k f m) = map fst m.
Proof. induction m as [|[a v] m IH]; cbn; [reflexivity|]. destruct (Nat.eqb k a); cbn; congruence. Qed.

Lemma get_in {V} (m : list (nat * V)) k v : NoDup (map fst m) -> (get k m = Some v <-> In (k, v) m).
Proof.
  induction m as [|[a w] m IH]; cbn; intros H; [intuition congruence|]. inversion H; subst.
  destruct (Nat.eqb_spec k a) as [->|N].
  - split; [intros [= ->]; auto|]. intros [[= ->]|I]; [reflexivity|].
    exfalso. apply H2. apply in_map_iff. exists (a, v). auto.
  - rewrite IH by assumption. split; [auto|]. intros [[= -> ->]|I]; [congruence|auto].
Qed.

Lemma get_key {V} (m : list (nat * V)) k : In k (map fst m) <-> exists v, get k m = Some v.
Proof.
  induction m as [|[a w] m IH]; cbn; [split; [tauto|intros [? [=]]]|].
  destruct (Nat.eqb_spec k a) as [->|N].
  - split; eauto.
  - rewrite IH. split; [intros [|]; [congruence|auto]|auto].
Qed.

Lemma set_add_in {A} dec (x y : A) l : In y (set_add dec x l) <-> y = x \/ In y l.
Proof.
  unfold set_add. destruct (in_dec dec x l).
  - split; [auto|]. intros [->|]; auto.
  - rewrite in_app_iff. cbn. intuition.
Qed.

Lemma set_add_nodup {A} dec (x : A) l : NoDup l -> NoDup (set_add dec x l).
Proof.
  unfold set_add. intros H. destruct (in_dec dec x l); [assumption|].
  apply (Permutation_NoDup (l := x :: l)); [apply Permutation_cons_append|]. constructor; assumption.
Qed.

(** * What a history leaves in the cache *)
Record holds (h : list cache_op) (c : cache) : Prop := {
  ho_keys : NoDup (map fst (ca_schemas c));
  ho_ukeys : NoDup (map fst (ca_unknown c));
  ho_entry : forall s e, get s (ca_schemas c) = Some e ->
    en_schema e = s /\ places h s (en_ns e) /\ NoDup (en_types e) /\
    (forall k, In k (en_types e) <-> exists t, inserted h t /\ ti_schema t = s /\ s <> id_unknown /\ kind_name t = k) /\
    (forall s', (exists d, In d (en_deps e) /\ dep_id d = s') <-> depends h s s');
  ho_place : forall s n, places h s n -> exists e, get s (ca_schemas c) = Some e;
  ho_unknown : forall n e, get n (ca_unknown c) = Some e ->
    en_ns e = n /\ en_schema e = id_unknown /\
    (forall k, In k (en_types e) <-> exists t, inserted h t /\ ti_schema t = id_unknown /\ ti_ns t = n /\ kind_name t = k);
  ho_uplace : forall t, inserted h t -> ti_schema t = id_unknown -> exists e, get (ti_ns t) (ca_unknown c) = Some e;
  ho_ns : forall n l, get n (ca_namespaces c) = Some l ->
    NoDup l /\ (forall s, In s l <-> In (OpSchema n s) h);
  ho_ns_none : forall n, get n (ca_namespaces c) = None -> forall s, ~ In (OpSchema n s) h;
  ho_global : forall g, In g (ca_global c) <-> In (OpGlobal g) h;
  ho_size : length (ca_schemas c) <= length h }.

Lemma inserted_app h op t : inserted (h ++ [op]) t <-> inserted h t \/ op = OpInsert t.
Proof. unfold inserted. rewrite in_app_iff. cbn. intuition. Qed.

Lemma in_snoc {A} (x y : A) l : In x (l ++ [y]) <-> In x l \/ y = x.
Proof. rewrite in_app_iff. cbn. intuition. Qed.

Lemma places_app h op s n :
  places (h ++ [op]) s n <->
  places h s n \/ op = OpSchema n s \/ (exists t, op = OpInsert t /\ ti_schema t = s /\ s <> id_unknown /\ ti_ns t = n).
Proof.
  unfold places. rewrite in_snoc. split.
  - intros [[H|H]|(t & H & R)]; [auto|auto|]. apply inserted_app in H as [H|H]; [left; right; eauto|right; right; eauto].
  - intros [[H|(t & H & R)]|[H|(t & H & R)]]; [auto| |auto|].
    + right. exists t. rewrite inserted_app. auto.
    + right. exists t. rewrite inserted_app. auto.
Qed.

Lemma snoc_split {A} (h : list A) x h1 y h2 :
  h ++ [x] = h1 ++ y :: h2 ->
  (exists h3, h = h1 ++ y :: h3 /\ h2 = h3 ++ [x]) \/ (h = h1 /\ x = y /\ h2 = []).
Proof.
  destruct (exists_last (l := y :: h2)) as (l' & z & E); [discriminate|].
  intros H. rewrite E, app_assoc in H. apply app_inj_tail in H as [H <-].
  destruct l' as [|w l'].
  - cbn in E. injection E as <- ->. right. rewrite app_nil_r in H. auto.
  - cbn in E. injection E as <- ->. left. exists l'. auto.
Qed.

Lemma depends_app h op s s' :
  depends (h ++ [op]) s s' <->
  depends h s s' \/ (exists d n, op = OpDependency s d /\ places h s n /\ dep_id d = s').
Proof.
  split.
  - intros (h1 & d & h2 & n & E & P & D). apply snoc_split in E as [(h3 & -> & ->)|(-> & -> & ->)].
    + left. exists h1, d, h3, n. auto.
    + right. eauto.
  - intros [(h1 & d & h2 & n & -> & P & D)|(d & n & -> & P & D)].
    + exists h1, d, (h2 ++ [op]), n. rewrite <- app_assoc. auto.
    + exists h, d, [], n. auto.
Qed.

Lemma add_dep_in d e x : In x (en_deps (add_dep d e)) <-> x = d \/ In x (en_deps e).
Proof.
  unfold add_dep. destruct (in_dec dep_eq_dec d (en_deps e)); [|cbn; rewrite in_snoc; intuition].
  split; [auto|]. intros [->|]; auto.
Qed.
Lemma add_dep_rest d e :
  en_ns (add_dep d e) = en_ns e /\ en_schema (add_dep d e) = en_schema e /\ en_types (add_dep d e) = en_types e.
Proof. unfold add_dep. destruct (in_dec dep_eq_dec d (en_deps e)); auto. Qed.

Lemma upd_length {V} k d (f : V -> V) m : length (upd k d f m) <= S (length m).
Proof. induction m as [|[a v] m IH]; cbn; [lia|]. destruct (Nat.eqb k a); cbn; lia. Qed.
Lemma alter_length {V} k (f : V -> V) m : length (alter k f m) = length m.
Proof. induction m as [|[a v] m IH]; cbn; [lia|]. destruct (Nat.eqb k a); cbn; lia. Qed.

Lemma no_place_no_type h s : (forall n, ~ places h s n) ->
  forall t, inserted h t -> ti_schema t = s -> s <> id_unknown -> False.
Proof. intros N t I E Z. apply (N (ti_ns t)). right. exists t. auto. Qed.
Lemma no_place_no_dep h s : (forall n, ~ places h s n) -> forall s', ~ depends h s s'.
Proof.
  intros N s' (h1 & d & h2 & n & -> & P & D). apply (N n).
  destruct P as [P|(t & P & R)]; [left; apply in_app_iff; auto|right; exists t; split; [apply in_app_iff; auto|auto]].
Qed.

Lemma holds_run h : holds h (cache_run h).
Proof.
  induction h as [|op h IH] using rev_ind.
  - split; cbn; [constructor|constructor|discriminate| |discriminate| |discriminate| |tauto|lia].
    + intros s n [[]|(t & [] & _)].
    + intros t [].
    + intros n _ s [].
  - unfold cache_run in *. rewrite fold_left_app. cbn [fold_left].
    set (c := fold_left cache_do h cache_new) in *. clearbody c.
    assert (NP : forall s, get s (ca_schemas c) = None -> forall n, ~ places h s n).
    { intros s G n P. apply (ho_place _ _ IH) in P as [e E]. congruence. }
    destruct op as [i|ns s|s d|g]; cbn [cache_do].
    + (* insert *)
      unfold cache_insert. destruct (Nat.eqb_spec (ti_schema i) id_unknown) as [Z|Z].
      * split; cbn [ca_schemas ca_unknown ca_namespaces ca_global].
        -- apply IH.
        -- apply upd_nodup, IH.
        -- intros s e G. destruct (ho_entry _ _ IH s e G) as (A & B & ND & C & D).
           split; [exact A|]. split; [apply places_app; auto|]. split; [exact ND|]. split.
           ++ intros k. rewrite C. split.
              ** intros (t & I & R). exists t. rewrite inserted_app. auto.
              ** intros (t & I & R). apply inserted_app in I as [I|[= ->]]; [eauto|]. destruct R as (E & N & _). congruence.
           ++ intros s'. rewrite D, depends_app. split; [auto|]. intros [H|(? & ? & [=] & _)]; auto.
        -- intros s n P. apply places_app in P as [P|[[=]|(t & [= ->] & E & N & _)]]; [|congruence].
           apply (ho_place _ _ IH _ _ P).
        -- intros n e. rewrite get_upd. destruct (Nat.eqb_spec n (ti_ns i)) as [->|N].
           ++ intros [= <-]. destruct (get (ti_ns i) (ca_unknown c)) as [e|] eqn:G.
              ** destruct (ho_unknown _ _ IH _ _ G) as (A & B & C). cbn. split; [exact A|]. split; [exact B|].
                 intros k. rewrite set_add_in, C. split.
                 --- intros [->|(t & I & R)]; [exists i|exists t]; rewrite inserted_app; auto.
                 --- intros (t & I & R). apply inserted_app in I as [I|[= ->]]; [right; eauto|left].
                     destruct R as (_ & _ & <-). reflexivity.
              ** cbn. split; [reflexivity|]. split; [reflexivity|]. intros k. split.
                 --- intros [<-|[]]. exists i. rewrite inserted_app. auto.
                 --- intros (t & I & A & B & C). apply inserted_app in I as [I|[= ->]]; [|left; exact C].
                     destruct (ho_uplace _ _ IH t I A) as [e E]. rewrite B in E. congruence.
           ++ intros G. destruct (ho_unknown _ _ IH _ _ G) as (A & B & C). split; [exact A|]. split; [exact B|].
              intros k. rewrite C. split.
              ** intros (t & I & R). exists t. rewrite inserted_app. auto.
              ** intros (t & I & R). apply inserted_app in I as [I|[= ->]]; [eauto|]. destruct R as (_ & E & _). congruence.
        -- intros t I E. rewrite get_upd. destruct (Nat.eqb_spec (ti_ns t) (ti_ns i)) as [|N]; [eauto|].
           apply inserted_app in I as [I|[= ->]]; [|congruence]. apply (ho_uplace _ _ IH t I E).
        -- intros n l G. destruct (ho_ns _ _ IH n l G) as (A & B). split; [exact A|]. intros s.
           rewrite in_snoc, B. intuition discriminate.
        -- intros n G s I. apply in_snoc in I as [I|[=]]. apply (ho_ns_none _ _ IH n G s I).
        -- intros g. rewrite in_snoc, (ho_global _ _ IH). intuition discriminate.
        -- rewrite app_length. cbn. pose proof (ho_size _ _ IH). lia.
      * split; cbn [ca_schemas ca_unknown ca_namespaces ca_global].
        -- apply upd_nodup, IH.
        -- apply IH.
        -- intros s e. rewrite get_upd. destruct (Nat.eqb_spec s (ti_schema i)) as [->|N].
           ++ intros [= <-]. destruct (get (ti_schema i) (ca_schemas c)) as [e|] eqn:G.
              ** destruct (ho_entry _ _ IH _ _ G) as (A & B & ND & C & D). cbn.
                 split; [exact A|]. split; [apply places_app; auto|]. split; [apply set_add_nodup, ND|]. split.
                 --- intros k. rewrite set_add_in, C. split.
                     +++ intros [->|(t & I & R)]; [exists i|exists t]; rewrite inserted_app; auto.
                     +++ intros (t & I & R). apply inserted_app in I as [I|[= ->]]; [right; eauto|left].
                         destruct R as (_ & _ & <-). reflexivity.
                 --- intros s'. rewrite D, depends_app. split; [auto|]. intros [H|(? & ? & [=] & _)]; auto.
              ** cbn. split; [reflexivity|]. split; [apply places_app; right; right; exists i; auto|].
                 split; [repeat constructor; auto|]. split.
                 --- intros k. split.
                     +++ intros [<-|[]]. exists i. rewrite inserted_app. auto.
                     +++ intros (t & I & A & B & C). apply inserted_app in I as [I|[= ->]]; [|left; exact C].
                         exfalso. exact (no_place_no_type _ _ (NP _ G) t I A B).
                 --- intros s'. rewrite depends_app. split; [intros (? & [] & _)|].
                     intros [H|(? & ? & [=] & _)]. exfalso. exact (no_place_no_dep _ _ (NP _ G) s' H).
           ++ intros G. destruct (ho_entry _ _ IH _ _ G) as (A & B & ND & C & D).
              split; [exact A|]. split; [apply places_app; auto|]. split; [exact ND|]. split.
              ** intros k. rewrite C. split.
                 --- intros (t & I & R). exists t. rewrite inserted_app. auto.
                 --- intros (t & I & R). apply inserted_app in I as [I|[= ->]]; [eauto|]. destruct R as (E & _). congruence.
              ** intros s'. rewrite D, depends_app. split; [auto|]. intros [H|(? & ? & [=] & _)]; auto.
        -- intros s n P. rewrite get_upd. destruct (Nat.eqb_spec s (ti_schema i)) as [|N]; [eauto|].
           apply places_app in P as [P|[[=]|(t & [= ->] & E & _ & _)]]; [|congruence].
           apply (ho_place _ _ IH _ _ P).
        -- intros n e G. destruct (ho_unknown _ _ IH _ _ G) as (A & B & C). split; [exact A|]. split; [exact B|].
           intros k. rewrite C. split.
           ++ intros (t & I & R). exists t. rewrite inserted_app. auto.
           ++ intros (t & I & R). apply inserted_app in I as [I|[= ->]]; [eauto|]. destruct R as (E & _). congruence.
        -- intros t I E. apply inserted_app in I as [I|[= ->]]; [|congruence]. apply (ho_uplace _ _ IH t I E).
        -- intros n l G. destruct (ho_ns _ _ IH n l G) as (A & B). split; [exact A|]. intros s.
           rewrite in_snoc, B. intuition discriminate.
        -- intros n G s I. apply in_snoc in I as [I|[=]]. apply (ho_ns_none _ _ IH n G s I).
        -- intros g. rewrite in_snoc, (ho_global _ _ IH). intuition discriminate.
        -- rewrite app_length. cbn. pose proof (ho_size _ _ IH).
           match goal with |- length (upd ?k ?d ?f ?m) <= _ => pose proof (upd_length k d f m) end. lia.
    + (* add_schema *)
      unfold cache_add_schema. split; cbn [ca_schemas ca_unknown ca_namespaces ca_global].
      * apply upd_nodup, IH.
      * apply IH.
      * intros s0 e. rewrite get_upd. intros G.
        assert (HI : forall t, inserted (h ++ [OpSchema ns s]) t <-> inserted h t).
        { intros t. rewrite inserted_app. intuition discriminate. }
        assert (HD : forall s', depends (h ++ [OpSchema ns s]) s0 s' <-> depends h s0 s').
        { intros s'. rewrite depends_app. split; [|auto]. intros [|(? & ? & [=] & _)]; auto. }
        assert (G' : get s0 (ca_schemas c) = Some e \/ (s0 = s /\ get s (ca_schemas c) = None /\ e = Entry ns s [] [])).
        { destruct (Nat.eqb_spec s0 s) as [->|N]; [|auto]. destruct (get s (ca_schemas c)); injection G as <-; auto. }
        destruct G' as [G'|(-> & G' & ->)].
        -- destruct (ho_entry _ _ IH _ _ G') as (A & B & ND & C & D).
           split; [exact A|]. split; [apply places_app; auto|]. split; [exact ND|]. split.
           ++ intros k. rewrite C. split; intros (t & I & R); exists t; rewrite HI in *; auto.
           ++ intros s'. rewrite D, HD. reflexivity.
        -- cbn. split; [reflexivity|]. split; [apply places_app; auto|]. split; [constructor|]. split.
           ++ intros k. split; [intros []|]. intros (t & I & A & B & _). apply HI in I.
              exact (no_place_no_type _ _ (NP _ G') t I A B).
           ++ intros s'. rewrite HD. split; [intros (? & [] & _)|]. intros H. exfalso. exact (no_place_no_dep _ _ (NP _ G') s' H).
      * intros s0 n P. rewrite get_upd. destruct (Nat.eqb_spec s0 s) as [|N]; [eauto|].
        apply places_app in P as [P|[[= -> ->]|(t & [=] & _)]]; [|congruence]. apply (ho_place _ _ IH _ _ P).
      * intros n e G. destruct (ho_unknown _ _ IH _ _ G) as (A & B & C). split; [exact A|]. split; [exact B|].
        intros k. rewrite C. split.
        -- intros (t & I & R). exists t. rewrite inserted_app. auto.
        -- intros (t & I & R). apply inserted_app in I as [I|[=]]. eauto.
      * intros t I E. apply inserted_app in I as [I|[=]]. apply (ho_uplace _ _ IH t I E).
      * intros n l. rewrite get_upd. destruct (Nat.eqb_spec n ns) as [->|N].
        -- intros [= <-]. destruct (get ns (ca_namespaces c)) as [l|] eqn:G.
           ++ destruct (ho_ns _ _ IH ns l G) as (A & B). split; [apply set_add_nodup, A|]. intros s0.
              rewrite set_add_in, in_snoc, B. split; [intros [->|]; auto|]. intros [|[= ->]]; auto.
           ++ split; [cbn; repeat constructor; auto|]. intros s0. rewrite set_add_in, in_snoc. cbn. split.
              ** intros [->|[]]; auto.
              ** intros [H|[= ->]]; [|auto]. exfalso. exact (ho_ns_none _ _ IH ns G s0 H).
        -- intros G. destruct (ho_ns _ _ IH n l G) as (A & B). split; [exact A|]. intros s0.
           rewrite in_snoc, B. split; [auto|]. intros [|[= -> ->]]; [auto|congruence].
      * intros n. rewrite get_upd. destruct (Nat.eqb_spec n ns) as [->|N]; [discriminate|].
        intros G s0 I. apply in_snoc in I as [I|[= -> ->]]; [|congruence]. exact (ho_ns_none _ _ IH n G s0 I).
      * intros g. rewrite in_snoc, (ho_global _ _ IH). intuition discriminate.
      * rewrite app_length. cbn. pose proof (ho_size _ _ IH).
        match goal with |- length (upd ?k ?d ?f ?m) <= _ => pose proof (upd_length k d f m) end. lia.
    + (* add_dependency *)
      assert (HI : forall t, inserted (h ++ [OpDependency s d]) t <-> inserted h t).
      { intros t. rewrite inserted_app. intuition discriminate. }
      assert (HP : forall s0 n, places (h ++ [OpDependency s d]) s0 n <-> places h s0 n).
      { intros s0 n. rewrite places_app. split; [|auto]. intros [|[[=]|(t & [=] & _)]]; auto. }
      unfold cache_add_dependency. split; cbn [ca_schemas ca_unknown ca_namespaces ca_global].
      * rewrite alter_keys. apply IH.
      * apply IH.
      * intros s0 e. rewrite get_alter. destruct (Nat.eqb_spec s0 s) as [->|N].
        -- destruct (get s (ca_schemas c)) as [e0|] eqn:G; [|discriminate]. intros [= <-].
           destruct (ho_entry _ _ IH _ _ G) as (A & B & ND & C & D).
           destruct (add_dep_rest d e0) as (E1 & E2 & E3). rewrite E1, E2, E3.
           split; [exact A|]. split; [apply HP, B|]. split; [exact ND|]. split.
           ++ intros k. rewrite C. split; intros (t & I & R); exists t; rewrite HI in *; auto.
           ++ intros s'. rewrite depends_app, <- D. split.
              ** intros (x & I & E). apply add_dep_in in I as [->|I]; [right|left]; eauto.
              ** intros [(x & I & E)|(x & n & [= ->] & P & E)]; exists x; rewrite add_dep_in; auto.
        -- intros G. destruct (ho_entry _ _ IH _ _ G) as (A & B & ND & C & D).
           split; [exact A|]. split; [apply HP, B|]. split; [exact ND|]. split.
           ++ intros k. rewrite C. split; intros (t & I & R); exists t; rewrite HI in *; auto.
           ++ intros s'. rewrite depends_app, <- D. split; [auto|]. intros [|(x & n & [= -> ->] & _)]; [auto|congruence].
      * intros s0 n P. apply HP in P. apply (ho_place _ _ IH) in P as [e E]. rewrite get_alter.
        destruct (Nat.eqb_spec s0 s) as [->|N]; [rewrite E; cbn|]; eauto.
      * intros n e G. destruct (ho_unknown _ _ IH _ _ G) as (A & B & C). split; [exact A|]. split; [exact B|].
        intros k. rewrite C. split; intros (t & I & R); exists t; rewrite HI in *; auto.
      * intros t I E. apply HI in I. apply (ho_uplace _ _ IH t I E).
      * intros n l G. destruct (ho_ns _ _ IH n l G) as (A & B). split; [exact A|]. intros s0.
        rewrite in_snoc, B. intuition discriminate.
      * intros n G s0 I. apply in_snoc in I as [I|[=]]. apply (ho_ns_none _ _ IH n G s0 I).
      * intros g. rewrite in_snoc, (ho_global _ _ IH). intuition discriminate.
      * rewrite app_length, alter_length. cbn. pose proof (ho_size _ _ IH). lia.
    + (* add_global_namespace *)
      assert (HI : forall t, inserted (h ++ [OpGlobal g]) t <-> inserted h t).
      { intros t. rewrite inserted_app. intuition discriminate. }
      assert (HP : forall s0 n, places (h ++ [OpGlobal g]) s0 n <-> places h s0 n).
      { intros s0 n. rewrite places_app. split; [|auto]. intros [|[[=]|(t & [=] & _)]]; auto. }
      unfold cache_add_global. split; cbn [ca_schemas ca_unknown ca_namespaces ca_global].
      * apply IH.
      * apply IH.
      * intros s e G. destruct (ho_entry _ _ IH _ _ G) as (A & B & ND & C & D).
        split; [exact A|]. split; [apply HP, B|]. split; [exact ND|]. split.
        -- intros k. rewrite C. split; intros (t & I & R); exists t; rewrite HI in *; auto.
        -- intros s'. rewrite depends_app, <- D. split; [auto|]. intros [|(x & n & [=] & _)]; auto.
      * intros s n P. apply HP in P. apply (ho_place _ _ IH _ _ P).
      * intros n e G. destruct (ho_unknown _ _ IH _ _ G) as (A & B & C). split; [exact A|]. split; [exact B|].
        intros k. rewrite C. split; intros (t & I & R); exists t; rewrite HI in *; auto.
      * intros t I E. apply HI in I. apply (ho_uplace _ _ IH t I E).
      * intros n l. rewrite get_upd. destruct (Nat.eqb_spec n g) as [->|N].
        -- intros [= <-]. destruct (get g (ca_namespaces c)) as [l|] eqn:G.
           ++ destruct (ho_ns _ _ IH g l G) as (A & B). split; [exact A|]. intros s. rewrite in_snoc, B. intuition discriminate.
           ++ split; [constructor|]. intros s. rewrite in_snoc. split; [intros []|].
              intros [H|[=]]. exact (ho_ns_none _ _ IH g G s H).
        -- intros G. destruct (ho_ns _ _ IH n l G) as (A & B). split; [exact A|]. intros s. rewrite in_snoc, B. intuition discriminate.
      * intros n. rewrite get_upd. destruct (Nat.eqb_spec n g) as [->|N]; [discriminate|].
        intros G s I. apply in_snoc in I as [I|[=]]. exact (ho_ns_none _ _ IH n G s I).
      * intros g0. rewrite !in_snoc, (ho_global _ _ IH). split; (intros [H|H]; [auto|]); [subst|injection H as ->]; auto.
      * rewrite app_length. cbn. pose proof (ho_size _ _ IH). lia.
Qed.

(** * Global resolution *)
Lemma entry_matches_iff e q :
  entry_matches e q = true <->
  (ti_ns q = id_unknown \/ ti_ns q = en_ns e) /\ (ti_schema q = id_unknown \/ ti_schema q = en_schema e) /\
  In (kind_name q) (en_types e).
Proof.
  unfold entry_matches, is_left, kind_name. rewrite !andb_true_iff, !orb_true_iff, !Nat.eqb_eq.
  destruct (in_dec tkey_eq_dec _ _); intuition discriminate.
Qed.

(** The entries [resolve] looks at. *)
Definition candidates (o : order) (c : cache) (q : tident) : list entry :=
  entries_of c (resolve_schemas o c q) ++
  (if Nat.eqb (ti_schema q) id_unknown then map snd (or_entries o (ca_unknown c)) else []).

Lemma resolve_entries_app q l l' r :
  resolve_entries q (l ++ l') r =
  match resolve_entries q l r with inl e => inl e | inr r' => resolve_entries q l' r' end.
Proof.
  revert r. induction l as [|e l IH]; intros r; cbn; [reflexivity|].
  destruct (resolve_step q e r); [reflexivity|apply IH].
Qed.

Lemma resolve_candidates o c q :
  cache_resolve o c q =
  match resolve_entries q (candidates o c q) None with
  | inl e => Err e | inr (Some t) => Ok t | inr None => Err (UnknownType q)
  end.
Proof.
  unfold cache_resolve, candidates. rewrite resolve_entries_app.
  destruct (resolve_entries q (entries_of _ _) None); [reflexivity|].
  destruct (Nat.eqb (ti_schema q) id_unknown); reflexivity.
Qed.

Lemma resolve_entries_spec q l r :
  resolve_entries q l r =
  match r, filter (fun e => entry_matches e q) l with
  | _, [] => inr r
  | None, [e] => inr (Some (make_ident e q))
  | _, _ => inl (AmbiguousType q)
  end.
Proof.
  revert r. induction l as [|e l IH]; intros r; cbn; [destruct r; reflexivity|].
  unfold resolve_step. destruct (entry_matches e q); [|apply IH].
  destruct r; [reflexivity|]. rewrite IH. destruct (filter _ l); reflexivity.
Qed.

Lemma entries_of_in h c ids e : holds h c ->
  In e (entries_of c ids) <-> In (en_schema e) ids /\ get (en_schema e) (ca_schemas c) = Some e.
Proof.
  intros H. unfold entries_of. rewrite in_flat_map. split.
  - intros (s & I & J). destruct (get s (ca_schemas c)) as [e'|] eqn:G; [|destruct J].
    destruct J as [->|[]]. destruct (ho_entry _ _ H _ _ G) as (E & _). rewrite E. auto.
  - intros (I & G). exists (en_schema e). rewrite G. cbn. auto.
Qed.

Lemma entries_of_nodup h c ids : holds h c -> NoDup ids -> NoDup (entries_of c ids).
Proof.
  intros H N. induction N as [|s ids NI N IH]; [constructor|].
  cbn. destruct (get s (ca_schemas c)) as [e|] eqn:G; [|exact IH]. constructor; [|exact IH].
  intros I. apply (entries_of_in h) in I as (I & _); [|exact H].
  destruct (ho_entry _ _ H _ _ G) as (E & _). congruence.
Qed.

Lemma unknown_in h c o e : holds h c -> any_order_of o ->
  In e (map snd (or_entries o (ca_unknown c))) <-> get (en_ns e) (ca_unknown c) = Some e.
Proof.
  intros H (_ & _ & P). split.
  - intros I. apply in_map_iff in I as ([n e'] & E & I). cbn in E. subst e'.
    apply (Permutation_in _ (P _)) in I. apply get_in in I; [|apply H].
    destruct (ho_unknown _ _ H _ _ I) as (E & _). rewrite E. exact I.
  - intros G. apply in_map_iff. exists (en_ns e, e). split; [reflexivity|].
    apply (Permutation_in _ (Permutation_sym (P _))). apply get_in; [apply H|exact G].
Qed.

Lemma nodup_snd {V} (m : list (nat * V)) (f : V -> nat) :
  NoDup (map fst m) -> (forall k v, In (k, v) m -> f v = k) -> NoDup (map snd m).
Proof.
  induction m as [|[k v] m IH]; cbn; intros N F; [constructor|]. inversion N; subst. constructor.
  - intros I. apply in_map_iff in I as ([k' v'] & E & I). cbn in E. subst v'. apply H1.
    rewrite <- (F k v (or_introl eq_refl)), (F k' v (or_intror I)). apply in_map_iff. exists (k', v). auto.
  - apply IH; auto.
Qed.

Lemma unknown_nodup h c o : holds h c -> any_order_of o -> NoDup (map snd (or_entries o (ca_unknown c))).
Proof.
  intros H (_ & _ & P). apply (nodup_snd _ en_ns).
  - apply (Permutation_NoDup (l := map fst (ca_unknown c))); [|apply H].
    apply Permutation_map, Permutation_sym, P.
  - intros k v I. apply (Permutation_in _ (P _)) in I. apply get_in in I; [|apply H].
    apply (ho_unknown _ _ H _ _ I).
Qed.

Definition matching (o : order) (c : cache) (q : tident) : list entry :=
  filter (fun e => entry_matches e q) (candidates o c q).

Lemma nodup_app {A} (a b : list A) : NoDup a -> NoDup b -> (forall x, In x a -> ~ In x b) -> NoDup (a ++ b).
Proof.
  induction 1 as [|x a N H IH]; intros B D; cbn; [exact B|]. constructor.
  - rewrite in_app_iff. intros [I|I]; [auto|]. exact (D x (or_introl eq_refl) I).
  - apply IH; [exact B|]. intros y I. apply D. right. exact I.
Qed.

Lemma matching_nodup h c o q : holds h c -> any_order_of o -> NoDup (matching o c q).
Proof.
  intros H O. unfold matching, candidates. rewrite filter_app.
  assert (N : NoDup (resolve_schemas o c q)).
  { unfold resolve_schemas. destruct (Nat.eqb (ti_schema q) id_unknown); [|repeat constructor; auto].
    destruct O as (O & _). destruct (Nat.eqb (ti_ns q) id_unknown).
    - apply (Permutation_NoDup (Permutation_sym (O _))), H.
    - destruct (get (ti_ns q) (ca_namespaces c)) as [l|] eqn:G; [|constructor].
      apply (Permutation_NoDup (Permutation_sym (O _))), (ho_ns _ _ H _ _ G). }
  apply (entries_of_nodup h c) in N; [|exact H].
  apply nodup_app.
  - apply NoDup_filter, N.
  - apply NoDup_filter. destruct (Nat.eqb (ti_schema q) id_unknown); [apply (unknown_nodup h); assumption|constructor].
  - intros e I J. apply filter_In in I as (I & M). apply filter_In in J as (J & _).
    apply (entries_of_in h) in I as (_ & G); [|exact H].
    destruct (Nat.eqb (ti_schema q) id_unknown); [|destruct J].
    apply (unknown_in h) in J; [|exact H|exact O].
    destruct (ho_unknown _ _ H _ _ J) as (_ & Z & _).
    destruct (ho_entry _ _ H _ _ G) as (_ & _ & _ & C & _).
    apply entry_matches_iff in M as (_ & _ & M). apply C in M as (t & _ & _ & NZ & _). congruence.
Qed.

Lemma matching_sound h c o q e : holds h c -> any_order_of o -> one_namespace h ->
  In e (matching o c q) ->
  exists t, inserted h t /\ fits q t /\ ti_ns t = en_ns e /\ ti_schema t = en_schema e.
Proof.
  intros H O ON I. unfold matching, candidates in I. apply filter_In in I as (I & M).
  apply entry_matches_iff in M as (MN & MS & MK). apply in_app_iff in I as [I|I].
  - apply (entries_of_in h) in I as (_ & G); [|exact H].
    destruct (ho_entry _ _ H _ _ G) as (_ & P & _ & C & _).
    apply C in MK as (t & T & TS & NZ & K). exists t.
    assert (E : ti_ns t = en_ns e). { apply (ON (en_schema e)); [right; exists t; auto|exact P]. }
    unfold kind_name in K. injection K as K1 K2. unfold fits. rewrite E, TS. repeat split; auto.
  - destruct (Nat.eqb (ti_schema q) id_unknown); [|destruct I].
    apply (unknown_in h) in I; [|exact H|exact O]. destruct (ho_unknown _ _ H _ _ I) as (_ & Z & C).
    apply C in MK as (t & T & TS & TN & K). exists t.
    unfold kind_name in K. injection K as K1 K2. unfold fits. rewrite Z, TS, TN. rewrite Z in MS. repeat split; auto.
Qed.

Lemma matching_complete h c o q t : holds h c -> any_order_of o -> one_namespace h -> schemas_added h ->
  inserted h t -> fits q t ->
  exists e, In e (matching o c q) /\ ti_ns t = en_ns e /\ ti_schema t = en_schema e.
Proof.
  intros H O ON SA T (FN & FS & FT & FK). unfold matching, candidates.
  destruct (Nat.eq_dec (ti_schema t) id_unknown) as [Z|NZ].
  - destruct (ho_uplace _ _ H t T Z) as [e G]. destruct (ho_unknown _ _ H _ _ G) as (A & B & C).
    exists e. split; [|split; congruence]. apply filter_In. split.
    + apply in_app_iff. right.
      assert (Q : ti_schema q = id_unknown) by (destruct FS; congruence). rewrite Q. cbn.
      apply (unknown_in h); [assumption..|]. rewrite A. exact G.
    + apply entry_matches_iff. rewrite A, B. split; [exact FN|]. split; [rewrite Z in FS; exact FS|].
      apply C. exists t. repeat split; auto. unfold kind_name. congruence.
  - assert (P : places h (ti_schema t) (ti_ns t)) by (right; exists t; auto).
    destruct (ho_place _ _ H _ _ P) as [e G]. destruct (ho_entry _ _ H _ _ G) as (A & B & _ & C & _).
    assert (E : ti_ns t = en_ns e) by (apply (ON (ti_schema t)); assumption).
    exists e. split; [|split; congruence]. apply filter_In. split.
    + apply in_app_iff. left. apply (entries_of_in h); [exact H|]. rewrite A. split; [|exact G].
      unfold resolve_schemas. destruct (Nat.eqb_spec (ti_schema q) id_unknown) as [Q|Q].
      * destruct (Nat.eqb_spec (ti_ns q) id_unknown) as [QN|QN].
        -- apply (Permutation_in _ (Permutation_sym (proj1 O _))). apply get_key. eauto.
        -- destruct FN as [|FN]; [congruence|]. destruct (SA t T NZ) as [n S].
           assert (EN : n = ti_ns t) by (apply (ON (ti_schema t)); [left; exact S|exact P]). subst n. rewrite FN.
           destruct (get (ti_ns t) (ca_namespaces c)) as [l|] eqn:GN.
           ++ apply (Permutation_in _ (Permutation_sym (proj1 O _))). apply (ho_ns _ _ H _ _ GN), S.
           ++ exfalso. exact (ho_ns_none _ _ H _ GN _ S).
      * left. destruct FS; congruence.
    + apply entry_matches_iff. rewrite <- E, A. split; [exact FN|]. split; [exact FS|].
      apply C. exists t. repeat split; auto. unfold kind_name. congruence.
Qed.

Lemma matching_same h c o q e e' : holds h c -> any_order_of o ->
  In e (matching o c q) -> In e' (matching o c q) -> en_ns e = en_ns e' -> en_schema e = en_schema e' -> e = e'.
Proof.
  intros H O I J EN ES. unfold matching, candidates in I, J.
  apply filter_In in I as (I & M). apply filter_In in J as (J & M').
  assert (X : forall x y, In x (entries_of c (resolve_schemas o c q)) ->
              In y (map snd (or_entries o (ca_unknown c))) -> entry_matches x q = true ->
              en_schema x = en_schema y -> False).
  { intros x y IX IY MX E. apply (entries_of_in h) in IX as (_ & G); [|exact H].
    apply (unknown_in h) in IY; [|exact H|exact O]. destruct (ho_unknown _ _ H _ _ IY) as (_ & Z & _).
    destruct (ho_entry _ _ H _ _ G) as (_ & _ & _ & C & _).
    apply entry_matches_iff in MX as (_ & _ & MX). apply C in MX as (t & _ & _ & NZ & _). congruence. }
  apply in_app_iff in I as [I|I]; apply in_app_iff in J as [J|J].
  - apply (entries_of_in h) in I as (_ & G); [|exact H]. apply (entries_of_in h) in J as (_ & G'); [|exact H].
    rewrite ES in G. congruence.
  - destruct (Nat.eqb (ti_schema q) id_unknown); [|destruct J]. exfalso. exact (X _ _ I J M ES).
  - destruct (Nat.eqb (ti_schema q) id_unknown); [|destruct I]. exfalso. exact (X _ _ J I M' (eq_sym ES)).
  - destruct (Nat.eqb (ti_schema q) id_unknown); [|destruct I].
    apply (unknown_in h) in I; [|assumption..]. apply (unknown_in h) in J; [|assumption..]. rewrite EN in I. congruence.
Qed.

Lemma resolve_matching o c q :
  cache_resolve o c q =
  match matching o c q with
  | [] => Err (UnknownType q)
  | [e] => Ok (make_ident e q)
  | _ => Err (AmbiguousType q)
  end.
Proof.
  rewrite resolve_candidates, resolve_entries_spec. unfold matching.
  destruct (filter _ (candidates o c q)) as [|e [|]]; reflexivity.
Qed.

Lemma make_fit e q t : fits q t -> ti_ns t = en_ns e -> ti_schema t = en_schema e ->
  make_ident e q = ti_with_name t (ti_name q).
Proof.
  intros (A & B & C & D) N S. unfold make_ident, ti_with_name, id_or. rewrite <- N, <- S, C.
  f_equal.
  - destruct (Nat.eqb_spec (ti_ns q) id_unknown); [reflexivity|]. destruct A; congruence.
  - destruct (Nat.eqb_spec (ti_schema q) id_unknown); [reflexivity|]. destruct B; congruence.
Qed.

Lemma fits_same q t u : fits q t -> fits q u -> ti_ns t = ti_ns u -> ti_schema t = ti_schema u -> same_type t u.
Proof. intros (_ & _ & A & B) (_ & _ & C & D) N S. repeat split; congruence. Qed.

Section resolve.
  Variables (h : list cache_op) (o : order) (q : tident).
  Hypothesis O : any_order_of o.
  Hypothesis ON : one_namespace h.
  Hypothesis SA : schemas_added h.
  Let c := cache_run h.
  Let H : holds h c := holds_run h.

  Lemma resolve_cases :
    (cache_resolve o c q = Err (UnknownType q) /\ forall t, inserted h t -> ~ fits q t) \/
    (exists t, cache_resolve o c q = Ok (ti_with_name t (ti_name q)) /\ inserted h t /\ fits q t /\
               forall u, inserted h u -> fits q u -> same_type u t) \/
    (cache_resolve o c q = Err (AmbiguousType q) /\
     exists t u, inserted h t /\ fits q t /\ inserted h u /\ fits q u /\ ~ same_type t u).
  Proof.
    rewrite resolve_matching. pose proof (matching_nodup h c o q H O) as ND.
    destruct (matching o c q) as [|e [|e' l]] eqn:M.
    - left. split; [reflexivity|]. intros t T F.
      destruct (matching_complete h c o q t H O ON SA T F) as (e & I & _). rewrite M in I. destruct I.
    - right. left.
      destruct (matching_sound h c o q e H O ON) as (t & T & F & N & S). { rewrite M. left. reflexivity. }
      exists t. rewrite (make_fit e q t F N S). repeat split; try assumption; try apply F.
      all: destruct (matching_complete h c o q u H O ON SA) as (e1 & I & N1 & S1); [assumption..|];
        rewrite M in I; destruct I as [<-|[]]; try congruence.
      all: destruct F as (_ & _ & F1 & F2); destruct H1 as (_ & _ & F3 & F4); congruence.
    - right. right. split; [reflexivity|].
      assert (I : In e (matching o c q)) by (rewrite M; left; reflexivity).
      assert (I' : In e' (matching o c q)) by (rewrite M; right; left; reflexivity).
      destruct (matching_sound h c o q e H O ON I) as (t & T & F & N & S).
      destruct (matching_sound h c o q e' H O ON I') as (t' & T' & F' & N' & S').
      exists t, t'. split; [exact T|]. split; [exact F|]. split; [exact T'|]. split; [exact F'|]. intros (E1 & E2 & _).
      assert (e = e') by (apply (matching_same h c o q); congruence || assumption). subst e'.
      inversion ND; subst. apply H2. left. reflexivity.
  Qed.
End resolve.

(** * Resolution in the context of a schema *)
Lemma search_unfold n c q v s :
  search (S n) c q v s =
  if in_dec Nat.eq_dec s v then Some (v, None)
  else match get s (ca_schemas c) with
       | None => Some (s :: v, None)
       | Some e => if entry_matches e q then Some (s :: v, Some e)
                   else search_all n c q (s :: v) (map dep_id (en_deps e))
       end.
Proof.
  cbn [search]. destruct (in_dec Nat.eq_dec s v); [reflexivity|].
  destruct (get s (ca_schemas c)) as [e|]; [|reflexivity]. destruct (entry_matches e q); [reflexivity|].
  generalize (s :: v). induction (en_deps e) as [|d ds IH]; intros w; cbn; [reflexivity|].
  destruct (search n c q w (dep_id d)) as [[w' [e'|]]|]; [reflexivity|apply IH|reflexivity].
Qed.

(** The schemas that were not visited before have no match, and their dependencies are visited. *)
Definition fresh_closed (c : cache) (q : tident) (v v' : list nat) : Prop :=
  incl v v' /\
  forall x, In x v' -> ~ In x v -> forall e, get x (ca_schemas c) = Some e ->
    entry_matches e q = false /\ forall d, In d (en_deps e) -> In (dep_id d) v'.

Lemma fresh_closed_trans c q v w u : fresh_closed c q v w -> fresh_closed c q w u -> fresh_closed c q v u.
Proof.
  intros (A & B) (C & D). split; [intros x I; auto|]. intros x I N e G.
  destruct (in_dec Nat.eq_dec x w) as [J|J].
  - destruct (B x J N e G) as (M & E). split; [exact M|]. intros d F. apply C, E, F.
  - apply (D x I J e G).
Qed.

Lemma search_none n c q :
  (forall v s v', search n c q v s = Some (v', None) -> fresh_closed c q v v' /\ In s v') ->
  forall ids v v', search_all n c q v ids = Some (v', None) -> fresh_closed c q v v' /\ incl ids v'.
Proof.
  intros IH ids. induction ids as [|s ids IHl]; cbn; intros v v' E.
  - injection E as <-. split; [|intros x []]. split; [apply incl_refl|]. intros x I N. contradiction.
  - destruct (search n c q v s) as [[w [e|]]|] eqn:F; [discriminate| |discriminate].
    apply IH in F as (F1 & F2). apply IHl in E as (E1 & E2). split; [exact (fresh_closed_trans _ _ _ _ _ F1 E1)|].
    intros x [<-|I]; [apply E1, F2|apply E2, I].
Qed.

Lemma search_none_closed n c q v s v' :
  search n c q v s = Some (v', None) -> fresh_closed c q v v' /\ In s v'.
Proof.
  revert v s v'. induction n as [|n IH]; [discriminate|]. intros v s v'. rewrite search_unfold.
  destruct (in_dec Nat.eq_dec s v) as [I|NI].
  - intros [= <-]. split; [|exact I]. split; [apply incl_refl|]. intros x J N. contradiction.
  - destruct (get s (ca_schemas c)) as [e|] eqn:G.
    + destruct (entry_matches e q) eqn:M; [discriminate|]. intros E.
      apply (search_none n c q IH) in E as ((A & B) & C).
      assert (Is : In s v') by (apply A; left; reflexivity). split; [|exact Is].
      split; [intros x I; apply A; right; exact I|]. intros x I N e' G'.
      destruct (Nat.eq_dec x s) as [->|NS].
      * rewrite G in G'. injection G' as <-. split; [exact M|]. intros d D. apply C, in_map, D.
      * apply (B x I); [|exact G']. intros [<-|J]; [congruence|contradiction].
    + intros [= <-]. split; [|left; reflexivity]. split; [intros x I; right; exact I|].
      intros x [<-|I] N e G'; [congruence|contradiction].
Qed.

Lemma search_all_closed n c q v ids v' :
  search_all n c q v ids = Some (v', None) -> fresh_closed c q v v' /\ incl ids v'.
Proof. apply search_none. intros. apply (search_none_closed n). assumption. Qed.

(** Reachability in the cache. *)
Inductive creach (c : cache) : nat -> nat -> Prop :=
| creach_self s : creach c s s
| creach_dep s e d s' : get s (ca_schemas c) = Some e -> In d (en_deps e) -> creach c (dep_id d) s' -> creach c s s'.

Lemma creach_iff h c s s' : holds h c -> creach c s s' <-> reaches h s s'.
Proof.
  intros H. split.
  - induction 1 as [s|s e d s' G D R IH]; [constructor|]. apply reaches_dep with (dep_id d); [|exact IH].
    apply (ho_entry _ _ H _ _ G). eauto.
  - induction 1 as [s|s s1 s2 D R IH]; [constructor|].
    destruct (get s (ca_schemas c)) as [e|] eqn:G.
    + apply (proj2 (proj2 (proj2 (proj2 (ho_entry _ _ H _ _ G))))) in D as (d & I & <-).
      exact (creach_dep c s e d s2 G I IH).
    + exfalso. apply (no_place_no_dep h s) with (2 := D). intros n P.
      apply (ho_place _ _ H) in P as [e E]. congruence.
Qed.

Lemma search_found n c q : forall v s v' e,
  search n c q v s = Some (v', Some e) ->
  exists s', creach c s s' /\ get s' (ca_schemas c) = Some e /\ entry_matches e q = true.
Proof.
  induction n as [|n IH]; [discriminate|]. intros v s v' e. rewrite search_unfold.
  destruct (in_dec Nat.eq_dec s v) as [I|NI]; [discriminate|].
  destruct (get s (ca_schemas c)) as [e0|] eqn:G; [|discriminate].
  destruct (entry_matches e0 q) eqn:M.
  - intros [= _ <-]. exists s. split; [constructor|]. auto.
  - assert (X : forall ds w, incl ds (en_deps e0) -> search_all n c q w (map dep_id ds) = Some (v', Some e) ->
        exists d s', In d (en_deps e0) /\ creach c (dep_id d) s' /\ get s' (ca_schemas c) = Some e /\ entry_matches e q = true).
    { induction ds as [|d ds IHd]; cbn; intros w L; [discriminate|].
      destruct (search n c q w (dep_id d)) as [[w' [e'|]]|] eqn:F; [| |discriminate].
      - intros [= -> ->]. apply IH in F as (s' & R). exists d, s'. split; [apply L; left; reflexivity|exact R].
      - apply IHd. intros x I. apply L. right. exact I. }
    intros E. apply X in E as (d & s' & D & R & GM); [|apply incl_refl].
    exists s'. split; [exact (creach_dep c s e0 d s' G D R)|exact GM].
Qed.

Lemma search_all_found n c q ids : forall v v' e,
  search_all n c q v ids = Some (v', Some e) ->
  exists s s', In s ids /\ creach c s s' /\ get s' (ca_schemas c) = Some e /\ entry_matches e q = true.
Proof.
  induction ids as [|s ids IH]; cbn; intros v v' e; [discriminate|].
  destruct (search n c q v s) as [[w [e'|]]|] eqn:F; [| |discriminate].
  - intros [= -> ->]. apply search_found in F as (s' & R). exists s, s'. auto.
  - intros E. apply IH in E as (s0 & s' & I & R). exists s0, s'. auto.
Qed.

(** The schemas of the cache not visited yet. *)
Definition unvisited (c : cache) (v : list nat) : nat :=
  length (filter (fun s => negb (is_left (in_dec Nat.eq_dec s v))) (map fst (ca_schemas c))).

Lemma filter_le {A} (f g : A -> bool) l : (forall x, f x = true -> g x = true) ->
  length (filter f l) <= length (filter g l).
Proof.
  intros L. induction l as [|x l IH]; cbn; [lia|]. specialize (L x). destruct (f x), (g x); cbn; try lia; discriminate (L eq_refl).
Qed.

Lemma filter_lt {A} (f g : A -> bool) l y : (forall x, f x = true -> g x = true) ->
  In y l -> f y = false -> g y = true -> length (filter f l) < length (filter g l).
Proof.
  intros L I F G. induction l as [|x l IH]; [destruct I|]. cbn. destruct I as [->|I].
  - rewrite F, G. cbn. pose proof (filter_le f g l L). lia.
  - specialize (IH I). specialize (L x). destruct (f x), (g x); cbn; try lia; discriminate (L eq_refl).
Qed.

Lemma unvisited_test v s : negb (is_left (in_dec Nat.eq_dec s v)) = true <-> ~ In s v.
Proof. unfold is_left. destruct (in_dec Nat.eq_dec s v); cbn; intuition discriminate. Qed.

Lemma unvisited_le c v w : incl v w -> unvisited c w <= unvisited c v.
Proof. intros L. apply filter_le. intros x. rewrite !unvisited_test. intros N I. apply N, L, I. Qed.

Lemma unvisited_lt c v s e : get s (ca_schemas c) = Some e -> ~ In s v -> unvisited c (s :: v) < unvisited c v.
Proof.
  intros G NI. apply (filter_lt _ _ _ s).
  - intros x. rewrite !unvisited_test. intros N I. apply N. right. exact I.
  - apply get_key. eauto.
  - destruct (negb _) eqn:E; [|reflexivity]. apply unvisited_test in E. exfalso. apply E. left. reflexivity.
  - apply unvisited_test, NI.
Qed.

Lemma search_ends n c q : forall v s, unvisited c v < n -> exists r, search n c q v s = Some r.
Proof.
  induction n as [|n IH]; [lia|]. intros v s L. rewrite search_unfold.
  destruct (in_dec Nat.eq_dec s v) as [I|NI]; [eauto|].
  destruct (get s (ca_schemas c)) as [e|] eqn:G; [|eauto]. destruct (entry_matches e q); [eauto|].
  assert (L' : unvisited c (s :: v) < n) by (pose proof (unvisited_lt c v s e G NI); lia).
  revert L'. generalize (s :: v). induction (map dep_id (en_deps e)) as [|x ids IHl]; intros w L'; cbn; [eauto|].
  destruct (IH w x L') as ((w' & [r|]) & E); rewrite E; [eauto|]. apply IHl.
  apply search_none_closed in E as ((A & _) & _). pose proof (unvisited_le c w w' A). lia.
Qed.

Lemma search_all_ends n c q ids : forall v, unvisited c v < n -> exists r, search_all n c q v ids = Some r.
Proof.
  induction ids as [|x ids IHl]; intros w L'; cbn; [eauto|].
  destruct (search_ends n c q w x L') as ((w' & [r|]) & E); rewrite E; [eauto|]. apply IHl.
  apply search_none_closed in E as ((A & _) & _). pose proof (unvisited_le c w w' A). lia.
Qed.

Lemma unvisited_all h c : holds h c -> unvisited c [] <= length h.
Proof.
  intros H. unfold unvisited. etransitivity; [|apply (ho_size _ _ H)]. rewrite <- (map_length fst (ca_schemas c)).
  generalize (map fst (ca_schemas c)). intros l.
  generalize (fun s => negb (is_left (in_dec Nat.eq_dec s []))). intros f.
  induction l as [|x l IH]; cbn; [lia|]. destruct (f x); cbn; lia.
Qed.

(** A closed set of visited schemas contains everything reachable from it. *)
Lemma closed_reach c q v : fresh_closed c q [] v -> forall s s', creach c s s' -> In s v ->
  In s' v /\ forall e, get s' (ca_schemas c) = Some e -> entry_matches e q = false.
Proof.
  intros (_ & F) s s' R. induction R as [s|s e d s' G D R IH]; intros I.
  - split; [exact I|]. intros e G. apply (F s I (fun x => x) e G).
  - apply IH. apply (F s I (fun x => x) e G). exact D.
Qed.

Lemma entry_fits h c s e q : holds h c -> one_namespace h -> get s (ca_schemas c) = Some e ->
  entry_matches e q = true <-> exists t, inserted h t /\ fits q t /\ ti_schema t = s /\ s <> id_unknown.
Proof.
  intros H ON G. destruct (ho_entry _ _ H _ _ G) as (A & B & _ & C & _). rewrite entry_matches_iff, A, C. split.
  - intros (MN & MS & (t & T & TS & NZ & K)). exists t.
    assert (E : ti_ns t = en_ns e). { apply (ON s); [right; exists t; auto|exact B]. }
    unfold kind_name in K. injection K as K1 K2. unfold fits. rewrite E, TS. repeat split; auto.
  - intros (t & T & (FN & FS & FT & FK) & TS & NZ).
    assert (E : ti_ns t = en_ns e). { apply (ON s); [right; exists t; auto|exact B]. }
    rewrite <- E, <- TS. repeat split; auto. exists t. repeat split; auto; try congruence. unfold kind_name. congruence.
Qed.

Lemma entry_ident h c s e q t : holds h c -> one_namespace h -> get s (ca_schemas c) = Some e ->
  inserted h t -> fits q t -> ti_schema t = s -> s <> id_unknown -> make_ident e q = ti_with_name t (ti_name q).
Proof.
  intros H ON G T F TS NZ. destruct (ho_entry _ _ H _ _ G) as (A & B & _ & C & _).
  apply make_fit; [exact F| |congruence]. apply (ON s); [right; exists t; auto|exact B].
Qed.

Lemma global_ids_in h c o s : holds h c -> any_order_of o ->
  In s (global_ids o c) <-> exists g, In (OpGlobal g) h /\ In (OpSchema g s) h.
Proof.
  intros H (O & _). unfold global_ids. rewrite in_flat_map. split.
  - intros (g & I & J). exists g. split; [apply (ho_global _ _ H), I|].
    destruct (get g (ca_namespaces c)) as [l|] eqn:G; [|destruct J].
    apply (Permutation_in _ (O _)) in J. apply (ho_ns _ _ H _ _ G), J.
  - intros (g & I & J). exists g. split; [apply (ho_global _ _ H), I|].
    destruct (get g (ca_namespaces c)) as [l|] eqn:G.
    + apply (Permutation_in _ (Permutation_sym (O _))). apply (ho_ns _ _ H _ _ G), J.
    + exfalso. exact (ho_ns_none _ _ H _ G _ J).
Qed.

Section resolve_for.
  Variables (h : list cache_op) (o : order) (s : nat) (q : tident) (fuel : nat).
  Hypothesis O : any_order_of o.
  Hypothesis ON : one_namespace h.
  Hypothesis L : length h < fuel.
  Let c := cache_run h.
  Let H : holds h c := holds_run h.

  Lemma resolve_for_cases :
    (exists t, cache_resolve_for fuel o c s q = Ok (ti_with_name t (ti_name q)) /\ fits q t /\
       (in_reach h s t \/
        (forall u, in_reach h s u -> ~ fits q u) /\
        (in_global h t \/ (forall u, in_global h u -> ~ fits q u) /\ in_no_schema h t))) \/
    (cache_resolve_for fuel o c s q = Err (UnknownType q) /\
     forall u, in_reach h s u \/ in_global h u \/ in_no_schema h u -> ~ fits q u).
  Proof.
    unfold cache_resolve_for.
    pose proof (unvisited_all h c H) as UL.
    destruct (search_ends fuel c q [] s) as ((v & [e|]) & E); [lia| |]; rewrite E.
    - left. apply search_found in E as (s' & R & G & M).
      apply (proj1 (entry_fits h c s' e q H ON G)) in M as (t & T & F & TS & NZ).
      exists t. rewrite (entry_ident h c s' e q t H ON G T F TS NZ). split; [reflexivity|]. split; [exact F|].
      left. split; [exact T|]. rewrite TS. split; [exact NZ|]. apply (creach_iff h c); assumption.
    - apply search_none_closed in E as (FC & Is).
      assert (NR : forall s0 v0, fresh_closed c q [] v0 -> In s0 v0 -> forall u, in_reach h s0 u -> ~ fits q u).
      { intros s0 v0 FC0 I0 u (U & NZ & R) F. apply (creach_iff h c) in R; [|exact H].
        destruct (closed_reach c q v0 FC0 _ _ R I0) as (_ & X).
        assert (P : places h (ti_schema u) (ti_ns u)) by (right; exists u; auto).
        destruct (ho_place _ _ H _ _ P) as [e G]. apply X in G as G'.
        rewrite (proj2 (entry_fits h c _ e q H ON G)) in G'; [discriminate|]. exists u. auto. }
      destruct (search_all_ends fuel c q (global_ids o c) v) as ((w & [e|]) & E).
      { pose proof (unvisited_le c [] v (proj1 FC)). lia. }
      + rewrite E. left. apply search_all_found in E as (s0 & s' & I & R & G & M).
        apply (global_ids_in h) in I as (g & I1 & I2); [|assumption..].
        apply (proj1 (entry_fits h c s' e q H ON G)) in M as (t & T & F & TS & NZ).
        exists t. rewrite (entry_ident h c s' e q t H ON G T F TS NZ). split; [reflexivity|]. split; [exact F|].
        right. split; [apply (NR s v FC Is)|]. left. exists g, s0. split; [exact I1|]. split; [exact I2|].
        split; [exact T|]. rewrite TS. split; [exact NZ|]. apply (creach_iff h c); assumption.
      + rewrite E. apply search_all_closed in E as (FC' & IC).
        pose proof (fresh_closed_trans _ _ _ _ _ FC FC') as FW.
        assert (NG : forall u, in_global h u -> ~ fits q u).
        { intros u (g & s0 & I1 & I2 & R). apply (NR s0 w FW); [|exact R]. apply IC, (global_ids_in h); eauto. }
        destruct (find (fun e => entry_matches e q) (map snd (or_entries o (ca_unknown c)))) as [e|] eqn:FD.
        * left. apply find_some in FD as (I & M). apply (unknown_in h) in I; [|assumption..].
          destruct (ho_unknown _ _ H _ _ I) as (_ & Z & C). apply entry_matches_iff in M as (MN & MS & MK).
          apply C in MK as (t & T & TS & TN & K). unfold kind_name in K. injection K as K1 K2.
          assert (F : fits q t). { unfold fits. rewrite TS, TN. rewrite Z in MS. repeat split; auto. }
          exists t. rewrite (make_fit e q t F TN); [|congruence]. split; [reflexivity|]. split; [exact F|].
          right. split; [apply (NR s v FC Is)|]. right. split; [exact NG|]. split; assumption.
        * right. split; [reflexivity|]. intros u [R|[R|(U & Z)]]; [apply (NR s v FC Is u R)|apply NG, R|].
          intros (FN & FS & FT & FK). destruct (ho_uplace _ _ H u U Z) as [e G].
          destruct (ho_unknown _ _ H _ _ G) as (A & B & C).
          assert (I : In e (map snd (or_entries o (ca_unknown c)))). { apply (unknown_in h); [assumption..|]. rewrite A. exact G. }
          pose proof (find_none _ _ FD e I) as M. cbn in M.
          rewrite (proj2 (entry_matches_iff e q)) in M; [discriminate|].
          rewrite A, B. split; [exact FN|]. split; [rewrite Z in FS; exact FS|]. apply C. exists u.
          repeat split; auto. unfold kind_name. congruence.
  Qed.
End resolve_for.

(** * The identifiers visible from a schema *)
Definition cur_types (st : set_iter) : list tkey :=
  match si_types st with Some (_, _, ks) => ks | None => [] end.

Record iinv (o : order) (c : cache) (s0 : nat) (st : set_iter) (out : list tident) : Prop := {
  ii_emitted : forall k, In k (si_emitted st) <-> In k (map kind_name out);
  ii_nodup : NoDup (map kind_name out);
  ii_out : forall t, In t out -> named t /\ exists s' e, creach c s0 s' /\ get s' (ca_schemas c) = Some e /\
    ti_ns t = en_ns e /\ ti_schema t = en_schema e /\ In (kind_name t) (en_types e);
  ii_cur : forall ns s ks, si_types st = Some (ns, s, ks) -> exists s' e, creach c s0 s' /\
    get s' (ca_schemas c) = Some e /\ ns = en_ns e /\ s = en_schema e /\ incl ks (en_types e);
  ii_stack : forall ds d, In ds (si_deps st) -> In d ds -> creach c s0 (dep_id d);
  ii_closed : forall x e, x = s0 \/ In x (si_visited st) -> get x (ca_schemas c) = Some e ->
    (forall k, In k (en_types e) -> In k (si_emitted st) \/ In k (cur_types st)) /\
    (forall d, In d (en_deps e) -> In (dep_id d) (si_visited st) \/ exists ds, In ds (si_deps st) /\ In d ds);
  ii_own : forall e k, get s0 (ca_schemas c) = Some e -> In k (en_types e) ->
    (exists t, In t out /\ kind_name t = k /\ ti_schema t = en_schema e) \/
    (In k (cur_types st) /\ (forall ns s ks, si_types st = Some (ns, s, ks) -> s = en_schema e) /\
     forall t, In t out -> ti_schema t = en_schema e) }.

Lemma iinv_start h c o s0 : holds h c -> any_order_of o -> iinv o c s0 (set_iter_new o c s0) [].
Proof.
  intros H (_ & O & _). unfold set_iter_new. destruct (get s0 (ca_schemas c)) as [e0|] eqn:G.
  - split; cbn.
    + tauto.
    + constructor.
    + intros t [].
    + intros ns s ks [= <- <- <-]. exists s0, e0. repeat split; try constructor; auto.
      intros k. apply (Permutation_in _ (O _)).
    + intros ds d [<-|[]] D. apply (creach_dep c s0 e0 d); [exact G|exact D|constructor].
    + intros x e [->|[]] G'. rewrite G in G'. injection G' as <-. split.
      * intros k I. right. apply (Permutation_in _ (Permutation_sym (O _))), I.
      * intros d I. right. exists (en_deps e0). auto.
    + intros e k G' I. rewrite G in G'. injection G' as <-. right. split; [|split].
      * apply (Permutation_in _ (Permutation_sym (O _))), I.
      * intros ns s ks [= _ <- _]. reflexivity.
      * intros t [].
  - split; cbn; [tauto|constructor|intros t []|discriminate|intros ds d []| |].
    + intros x e [->|[]]. congruence.
    + intros e k. congruence.
Qed.

Lemma named_kind ns s k : kind_name (TIdent ns s (Named (snd k)) (fst k)) = k.
Proof. destruct k. reflexivity. Qed.

Lemma iinv_turn h c o s0 st out st' y : holds h c -> any_order_of o -> iinv o c s0 st out ->
  set_iter_turn o c st = Some (st', y) ->
  iinv o c s0 st' (out ++ match y with Some t => [t] | None => [] end).
Proof.
  intros H (_ & O & _) I. destruct st as [vis em [[[ns s] [|k ks]]|] stack]; unfold set_iter_turn; cbn [si_types si_visited si_emitted si_deps].
  - intros [= <- <-]. rewrite app_nil_r. destruct I as [A B C D E F G]; cbn in *. split; cbn; auto.
    + discriminate.
    + intros e k Ge Ik. destruct (G e k Ge Ik) as [X|([] & _)]. auto.
  - destruct (in_dec tkey_eq_dec k em) as [J|J].
    + intros [= <- <-]. rewrite app_nil_r. destruct I as [A B C D E F G]; cbn in *. split; cbn; auto.
      * intros ns' s' ks' [= <- <- <-]. destruct (D _ _ _ eq_refl) as (s' & e & R1 & R2 & R3 & R4 & R5).
        exists s', e. repeat split; auto. intros z Z. apply R5. right. exact Z.
      * intros x e X Ge. destruct (F x e X Ge) as (F1 & F2). split; [|exact F2].
        intros k' K. destruct (F1 k' K) as [|[<-|]]; auto.
      * intros e k' Ge Ik. destruct (G e k' Ge Ik) as [X|([<-|X] & Y & Z)]; [auto| |].
        -- apply A in J. apply in_map_iff in J as (t & T1 & T2). left. exists t. auto.
        -- right. split; [exact X|]. split; [|exact Z]. intros n1 s1 l1 [= <- <- <-]. apply (Y _ _ _ eq_refl).
    + intros [= <- <-]. destruct I as [A B C D E F G]; cbn in *.
      destruct (D _ _ _ eq_refl) as (s' & e' & R1 & R2 & R3 & R4 & R5).
      split; cbn.
      * intros k'. rewrite map_app, in_app_iff. cbn. rewrite named_kind, A. intuition.
      * rewrite map_app. cbn. rewrite named_kind. apply nodup_app; [exact B|repeat constructor; auto|].
        intros z Z [<-|[]]. apply J, A, Z.
      * intros t T. apply in_app_iff in T as [T|[<-|[]]]; [auto|]. split; [exists (snd k); reflexivity|].
        exists s', e'. rewrite named_kind. repeat split; auto. apply R5. left. reflexivity.
      * intros n1 s1 l1 [= <- <- <-]. exists s', e'. repeat split; auto. intros z Z. apply R5. right. exact Z.
      * exact E.
      * intros x e X Ge. destruct (F x e X Ge) as (F1 & F2). split; [|exact F2].
        intros k' K. destruct (F1 k' K) as [|[<-|]]; auto.
      * intros e k' Ge Ik. destruct (G e k' Ge Ik) as [(t & T1 & T2)|([<-|X] & Y & Z)].
        -- left. exists t. rewrite in_app_iff. auto.
        -- left. eexists. split; [apply in_app_iff; right; left; reflexivity|]. rewrite named_kind. split; [reflexivity|].
           cbn. apply (Y _ _ _ eq_refl).
        -- right. split; [exact X|]. split.
           ++ intros n1 s1 l1 [= <- <- <-]. apply (Y _ _ _ eq_refl).
           ++ intros t T. apply in_app_iff in T as [T|[<-|[]]]; [auto|]. cbn. apply (Y _ _ _ eq_refl).
  - destruct stack as [|[|d ds] stack]; [discriminate| |].
    + intros [= <- <-]. rewrite app_nil_r. destruct I as [A B C D E F G]; cbn in *. split; cbn; auto.
      * intros ds d X. apply E. auto.
      * intros x e X Ge. destruct (F x e X Ge) as (F1 & F2). split; [exact F1|].
        intros d Dd. destruct (F2 d Dd) as [|(ds & [<-|Y] & Z)]; [auto|destruct Z|eauto].
    + assert (DR : creach c s0 (dep_id d)). { apply (ii_stack _ _ _ _ _ I) with (d :: ds); cbn; auto. }
      destruct (in_dec Nat.eq_dec (dep_id d) vis) as [J|J].
      * intros [= <- <-]. rewrite app_nil_r. destruct I as [A B C D E F G]; cbn in *. split; cbn; auto.
        -- intros l x [<-|X] Y; [apply (E (d :: ds)); cbn; auto|apply (E l); auto].
        -- intros x e X Ge. destruct (F x e X Ge) as (F1 & F2). split; [exact F1|].
           intros x' Dx. destruct (F2 x' Dx) as [|(l & [<-|Y] & Z)]; [auto| |right; exists l; cbn; auto].
           destruct Z as [<-|Z]; [auto|eauto].
      * destruct (get (dep_id d) (ca_schemas c)) as [e0|] eqn:G0.
        -- intros [= <- <-]. rewrite app_nil_r. destruct I as [A B C D E F G]; cbn in *. split; cbn; auto.
           ++ intros n1 s1 l1 [= <- <- <-]. exists (dep_id d), e0. repeat split; auto.
              intros k. apply (Permutation_in _ (O _)).
           ++ intros l x [<-|[<-|X]] Y; [|apply (E (d :: ds)); cbn; auto|apply (E l); auto].
              clear - DR G0 Y. remember (dep_id d) as z eqn:Ez. clear Ez. induction DR as [z|z e d' z' Gz Dz R IH].
              ** apply (creach_dep c z e0 x); [exact G0|exact Y|constructor].
              ** apply (creach_dep c z e d'); auto.
           ++ intros x e X Ge. assert (X' : x = dep_id d \/ (x = s0 \/ In x vis)) by intuition.
              destruct X' as [->|X'].
              ** rewrite G0 in Ge. injection Ge as <-. split.
                 --- intros k K. right. apply (Permutation_in _ (Permutation_sym (O _))), K.
                 --- intros x' Dx. right. exists (en_deps e0). auto.
              ** destruct (F x e X' Ge) as (F1 & F2). split.
                 --- intros k K. destruct (F1 k K) as [|[]]; auto.
                 --- intros x' Dx. destruct (F2 x' Dx) as [|(l & [<-|Y] & Z)]; [auto| |right; exists l; cbn; auto].
                     destruct Z as [<-|Z]; [auto|]. right. exists ds. auto.
           ++ intros e k Ge Ik. destruct (G e k Ge Ik) as [X|([] & _)]. auto.
        -- intros [= <- <-]. rewrite app_nil_r. destruct I as [A B C D E F G]; cbn in *. split; cbn; auto.
           ++ intros l x [<-|X] Y; [apply (E (d :: ds)); cbn; auto|apply (E l); auto].
           ++ intros x e X Ge. assert (X' : x = dep_id d \/ (x = s0 \/ In x vis)) by intuition.
              destruct X' as [->|X']; [congruence|]. destruct (F x e X' Ge) as (F1 & F2). split; [exact F1|].
              intros x' Dx. destruct (F2 x' Dx) as [|(l & [<-|Y] & Z)]; [auto| |right; exists l; cbn; auto].
              destruct Z as [<-|Z]; [auto|eauto].
Qed.

Lemma iinv_run h c o s0 : holds h c -> any_order_of o -> forall fuel st out l, iinv o c s0 st out ->
  set_iter_run fuel o c st = Some l ->
  exists st', iinv o c s0 st' (out ++ l) /\ si_types st' = None /\ si_deps st' = [].
Proof.
  intros H O. induction fuel as [|fuel IH]; intros st out l I; [discriminate|]. cbn [set_iter_run].
  destruct (set_iter_turn o c st) as [[st' y]|] eqn:T.
  - destruct (set_iter_run fuel o c st') as [l'|] eqn:R; [|discriminate]. intros [= <-].
    apply (iinv_turn h c o s0 st out) in T; [|assumption..]. destruct (IH _ _ _ T R) as (st2 & A & B).
    exists st2. split; [|exact B]. rewrite <- app_assoc in A. destruct y; exact A.
  - intros [= <-]. exists st. rewrite app_nil_r. split; [exact I|]. unfold set_iter_turn in T.
    destruct (si_types st) as [[[ns s] [|k ks]]|]; [discriminate|destruct (in_dec _ _ _); discriminate|].
    split; [reflexivity|]. destruct (si_deps st) as [|[|d ds] r]; [reflexivity|discriminate|].
    destruct (in_dec _ _ _); [discriminate|]. destruct (get (dep_id d) (ca_schemas c)); discriminate.
Qed.

Definition stack_size (l : list (list dependency)) : nat := list_sum (map (fun ds => S (length ds)) l).

Lemma stack_size_cons ds l : stack_size (ds :: l) = S (length ds + stack_size l).
Proof. reflexivity. Qed.

Lemma set_iter_ends o c : forall a b k st,
  unvisited c (si_visited st) < a -> stack_size (si_deps st) < b ->
  (match si_types st with Some (_, _, ks) => S (length ks) | None => 0 end) < k ->
  exists n, forall fuel, n <= fuel -> exists l, set_iter_run fuel o c st = Some l.
Proof.
  induction a as [|a IHa]; [lia|]. induction b as [|b IHb]; [lia|]. induction k as [|k IHk]; [lia|].
  intros st La Lb Lk.
  destruct (set_iter_turn o c st) as [[st' y]|] eqn:T.
  2: { exists 1. intros fuel F. destruct fuel; [lia|]. cbn. rewrite T. eauto. }
  assert (X : exists n, forall fuel, n <= fuel -> exists l, set_iter_run fuel o c st' = Some l).
  { destruct st as [vis em [[[ns s] [|x ks]]|] stack]; unfold set_iter_turn in T; cbn [si_types si_visited si_emitted si_deps] in *.
    - injection T as <- <-. apply IHk; cbn [si_types si_visited si_emitted si_deps length] in *; lia.
    - destruct (in_dec tkey_eq_dec x em); injection T as <- <-; apply IHk; cbn [si_types si_visited si_emitted si_deps length] in *; lia.
    - destruct stack as [|[|d ds] stack]; [discriminate| |].
      + injection T as <- <-. apply (IHb (S k)); cbn [si_types si_visited si_emitted si_deps]; [lia| |lia].
        rewrite stack_size_cons in Lb. cbn [length] in Lb. lia.
      + assert (SS : stack_size (ds :: stack) < b) by (rewrite stack_size_cons in *; cbn [length] in Lb; lia).
        destruct (in_dec Nat.eq_dec (dep_id d) vis) as [J|J].
        * injection T as <- <-. apply (IHb (S k)); cbn [si_types si_visited si_emitted si_deps]; [lia|exact SS|lia].
        * destruct (get (dep_id d) (ca_schemas c)) as [e|] eqn:G; injection T as <- <-.
          -- apply (IHa (S (stack_size (en_deps e :: ds :: stack))) (S (S (length (or_types o (en_types e))))));
               cbn [si_types si_visited si_emitted si_deps]; [|lia|lia].
             pose proof (unvisited_lt c vis (dep_id d) e G J). lia.
          -- apply (IHb (S k)); cbn [si_types si_visited si_emitted si_deps]; [|exact SS|lia].
             pose proof (unvisited_le c vis (dep_id d :: vis) (fun x I => or_intror I)). lia. }
  destruct X as (n & X). exists (S n). intros fuel F. destruct fuel as [|fuel]; [lia|]. cbn. rewrite T.
  destruct (X fuel ltac:(lia)) as (l & E). rewrite E. eauto.
Qed.

Lemma schema_set_spec h o s : any_order_of o -> one_namespace h ->
  exists n, forall fuel, n <= fuel -> exists l,
    schema_set fuel o (cache_run h) s = Some l /\
    NoDup (map kind_name l) /\
    (forall t, In t l -> named t /\ exists u, in_reach h s u /\ same_type t u) /\
    (forall u, in_reach h s u -> exists t, In t l /\ kind_name t = kind_name u /\ (ti_schema u = s -> ti_schema t = s)).
Proof.
  intros O ON. set (c := cache_run h). pose proof (holds_run h : holds h c) as H. clearbody c.
  destruct (set_iter_ends o c _ _ _ (set_iter_new o c s) (Nat.lt_succ_diag_r _) (Nat.lt_succ_diag_r _) (Nat.lt_succ_diag_r _)) as (n & X).
  exists n. intros fuel F. destruct (X fuel F) as (l & E). exists l. split; [exact E|].
  destruct (iinv_run h c o s H O fuel _ [] l (iinv_start h c o s H O) E) as (st & I & T & D).
  destruct I as [A B C _ _ G I]. split; [exact B|]. split.
  - intros t Tl. destruct (C t Tl) as (Nt & s' & e & R & Ge & N1 & N2 & K). split; [exact Nt|].
    destruct (ho_entry _ _ H _ _ Ge) as (E1 & P & _ & K' & _). apply K' in K as (u & U & US & NZ & UK).
    exists u. split; [split; [exact U|]; split; [congruence|]; rewrite US; apply (creach_iff h c); assumption|].
    unfold kind_name in UK. injection UK as UK1 UK2. repeat split; try congruence.
    transitivity (en_ns e); [exact N1|]. apply (ON s'); [exact P|right; exists u; auto].
  - intros u (U & NZ & R). apply (creach_iff h c) in R; [|exact H].
    assert (P : places h (ti_schema u) (ti_ns u)) by (right; exists u; auto).
    destruct (ho_place _ _ H _ _ P) as (e & Ge).
    destruct (ho_entry _ _ H _ _ Ge) as (E1 & _ & _ & K' & _).
    assert (Ku : In (kind_name u) (en_types e)) by (apply K'; exists u; auto).
    assert (V : ti_schema u = s \/ In (ti_schema u) (si_visited st)).
    { assert (V : forall a b, creach c a b -> a = s \/ In a (si_visited st) -> b = s \/ In b (si_visited st)).
      { intros a b Rab. induction Rab as [a|a e' d b Ga Da Rab IH]; intros Va; [exact Va|]. apply IH. right.
        destruct (G a e' Va Ga) as (_ & G2). destruct (G2 d Da) as [|(ds & Y & _)]; [assumption|].
        rewrite D in Y. destruct Y. }
      apply (V s _ R). left. reflexivity. }
    destruct (Nat.eq_dec (ti_schema u) s) as [Es|Ns].
    + rewrite Es in Ge. destruct (I e _ Ge Ku) as [(t & T1 & T2 & T3)|(Y & _)].
      * exists t. split; [exact T1|]. split; [exact T2|]. intros _. congruence.
      * unfold cur_types in Y. rewrite T in Y. destruct Y.
    + destruct (G _ _ V Ge) as (G1 & _). destruct (G1 _ Ku) as [Y|Y].
      * apply A in Y. apply in_map_iff in Y as (t & T1 & T2). exists t. split; [exact T2|]. split; [exact T1|]. congruence.
      * unfold cur_types in Y. rewrite T in Y. destruct Y.
Qed.
