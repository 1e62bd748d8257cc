(** Proofs about redefinitions. *)
From Verif Require Import Base IdentModel CacheSpec CacheProofs.
From Verif Require Import RedefModel RedefSpec.
From Coq Require Import Lia.
Import CacheModel.

(** * Maps *)
Lemma rget_set i e n j : rget j (rset i e n) = if tident_eq_dec j i then Some e else rget j n.
Proof.
  induction n as [|[i' e'] n IH]; cbn.
  - destruct (tident_eq_dec j i); reflexivity.
  - destruct (tident_eq_dec i i') as [->|N]; cbn.
    + destruct (tident_eq_dec j i'); reflexivity.
    + rewrite IH. destruct (tident_eq_dec j i') as [->|]; [|reflexivity].
      destruct (tident_eq_dec i' i); congruence.
Qed.
Lemma rget_in i n e : rget i n = Some e -> In i (map fst n).
Proof.
  induction n as [|[i' e'] n IH]; cbn; [discriminate|].
  destruct (tident_eq_dec i i') as [->|]; auto.
Qed.

Lemma named_same x u : named x -> named u -> same_type x u -> x = u.
Proof.
  intros (a & A) (b & B) (N & S & T & E). destruct x, u. cbn in *. subst. cbn in E. congruence.
Qed.

(** * The set of visible identifiers *)
Lemma set_iter_mono o c : forall n st l, set_iter_run n o c st = Some l -> forall m, n <= m -> set_iter_run m o c st = Some l.
Proof.
  induction n as [|n IH]; intros st l E m L; [discriminate|]. destruct m as [|m]; [lia|]. cbn in *.
  destruct (set_iter_turn o c st) as [[st' out]|]; [|assumption].
  destruct (set_iter_run n o c st') as [l'|] eqn:R; [|discriminate].
  rewrite (IH _ _ R m) by lia. assumption.
Qed.

Lemma set_visible main h o : any_order_of o -> one_namespace h -> one_definition main h -> main <> id_unknown ->
  exists n l, (forall fuel, n <= fuel -> schema_set fuel o (cache_run h) main = Some l) /\
    NoDup (map kind_name l) /\ forall x, In x l <-> visible main h x.
Proof.
  intros O ON OD MU. destruct (schema_set_spec h o main O ON) as (n & H).
  destruct (H n (le_n n)) as (l & E & ND & S & C). exists n, l. split; [|split; [exact ND|]].
  - intros fuel L. exact (set_iter_mono o _ n _ l E fuel L).
  - assert (V : forall x, In x l -> visible main h x).
    { intros x I. destruct (S x I) as (N & u & R & T). split; [exact N|]. split; [eauto|].
      destruct (Nat.eq_dec (ti_schema x) main) as [|NE]; [auto|]. right. intros w W _ K WS.
      destruct (C w W) as (t & It & Kt & St). specialize (St WS).
      assert (Et : t = x); [|congruence].
      assert (Kx : kind_name t = kind_name x) by congruence.
      clear - ND It I Kx. induction l as [|a l IH]; [destruct It|]. cbn in ND. inversion ND as [|? ? NI ND']; subst.
      destruct It as [->|It], I as [->|I].
      - reflexivity.
      - exfalso. apply NI. rewrite Kx. apply in_map. exact I.
      - exfalso. apply NI. rewrite <- Kx. apply in_map. exact It.
      - auto. }
    intros x. split; [apply V|]. intros (N & (u & R & T) & Hd).
    destruct (C u R) as (t & It & Kt & St). destruct (V t It) as (Nt & (v & Rv & Tv) & Ht).
    assert (Ku : kind_name x = kind_name u).
    { destruct T as (_ & _ & A & B). unfold kind_name. rewrite A, B. reflexivity. }
    assert (Kv : kind_name t = kind_name v).
    { destruct Tv as (_ & _ & A & B). unfold kind_name. rewrite A, B. reflexivity. }
    destruct (OD u v R Rv) as [NS SM]; [congruence|].
    assert (Sx : ti_schema x = ti_schema u) by apply T. assert (Sv : ti_schema t = ti_schema v) by apply Tv.
    assert (Nx : ti_ns x = ti_ns u) by apply T. assert (Nv : ti_ns t = ti_ns v) by apply Tv.
    assert (ST : same_type x t); [|rewrite (named_same x t N Nt ST); exact It].
    destruct (Nat.eq_dec (ti_schema u) main) as [E1|N1].
    + specialize (St E1). split; [congruence|]. split; [congruence|].
      unfold kind_name in *. split; congruence.
    + destruct (Nat.eq_dec (ti_schema v) main) as [E2|N2].
      * exfalso. destruct Hd as [Hd|Hd]; [congruence|]. apply (Hd v Rv); congruence.
      * destruct (SM N1 N2) as (A1 & A2 & A3 & A4). destruct T as (B1 & B2 & B3 & B4), Tv as (C1 & C2 & C3 & C4).
        repeat split; congruence.
Qed.

(** * Insertions into [main] *)
Section Insert.
  Variables (main ns : nat) (h0 : history).
  Hypothesis M : main <> id_unknown.
  Hypothesis P : places h0 main ns.
  Hypothesis ON : one_namespace h0.

  Definition with_copies (C : list tident) : history :=
    h0 ++ map (fun x => OpInsert (ti_with_schema x main)) C.
  Lemma with_snoc C x : with_copies (C ++ [x]) = with_copies C ++ [OpInsert (ti_with_schema x main)].
  Proof. unfold with_copies. rewrite map_app, app_assoc. reflexivity. Qed.

  Lemma copies_inserted C t : inserted (with_copies C) t <-> inserted h0 t \/ exists x, In x C /\ t = ti_with_schema x main.
  Proof.
    unfold with_copies, inserted. rewrite in_app_iff, in_map_iff. split.
    - intros [I|(x & E & I)]; [auto|]. right. exists x. injection E as <-. auto.
    - intros [I|(x & I & ->)]; [auto|]. right. eauto.
  Qed.
  Lemma copies_depends C s s' : depends (with_copies C) s s' <-> depends h0 s s'.
  Proof.
    induction C as [|x C IH] using rev_ind; [unfold with_copies; rewrite app_nil_r; reflexivity|].
    rewrite with_snoc, depends_app, IH. split; [intros [D|(d & n & E & _)]; [exact D|discriminate]|auto].
  Qed.
  Lemma copies_reaches C s s' : reaches (with_copies C) s s' <-> reaches h0 s s'.
  Proof.
    split; induction 1 as [|s s' s'' D R IH]; try constructor.
    - apply copies_depends in D. exact (reaches_dep _ _ _ _ D IH).
    - apply (copies_depends C) in D. exact (reaches_dep _ _ _ _ D IH).
  Qed.
  Lemma copies_reach C t : in_reach (with_copies C) main t <->
    in_reach h0 main t \/ exists x, In x C /\ t = ti_with_schema x main.
  Proof.
    unfold in_reach. rewrite copies_inserted, copies_reaches. split.
    - intros ([I|(x & I & E)] & U & R); [auto|eauto].
    - intros [(I & U & R)|(x & I & ->)]; [auto|]. split; [eauto|]. cbn. split; [exact M|constructor].
  Qed.
  Lemma copies_places C s n : (forall x, In x C -> ti_ns x = ns) ->
    places (with_copies C) s n -> places h0 s n \/ s = main /\ n = ns.
  Proof.
    induction C as [|x C IH] using rev_ind; [unfold with_copies; rewrite app_nil_r; auto|].
    intros F. rewrite with_snoc, places_app. intros [Q|[Q|(t & Q & S & U & N)]].
    - apply IH in Q; [exact Q|]. intros y Y. apply F. apply in_app_iff. auto.
    - discriminate.
    - injection Q as <-. cbn in *. right. split; [auto|]. rewrite <- N. apply F. apply in_app_iff. cbn. auto.
  Qed.
  Lemma copies_one C : (forall x, In x C -> ti_ns x = ns) -> one_namespace (with_copies C).
  Proof.
    intros F s n n' A B. apply copies_places in A, B; try exact F.
    destruct A as [A|[-> ->]], B as [B|[E ->]]; try subst; eauto.
  Qed.

  (** A component of [main] is in the namespace. *)
  Lemma main_ns u : inserted h0 u -> ti_schema u = main -> ti_ns u = ns.
  Proof. intros I E. apply (ON main); [right; exists u; rewrite E; auto|exact P]. Qed.
  Lemma main_reach u : inserted h0 u -> ti_schema u = main -> in_reach h0 main u.
  Proof. intros I E. split; [exact I|]. rewrite E. split; [exact M|constructor]. Qed.
End Insert.

(** * References that are moved *)
Section Move.
  Variable main : nat.

  (** The reference after the components [D] were dealt with. *)
  Definition mv (D : list tident) (base : option tident) (a : NodeModel.dep_key * NodeModel.dependency) :=
    let t := dep_target (snd a) in
    if in_dec tident_eq_dec t D
    then match base with
         | Some b => if tident_eq_dec b t then a else (fst a, dep_with (snd a) (ti_with_schema t main))
         | None => (fst a, dep_with (snd a) (ti_with_schema t main))
         end
    else a.
  Lemma mv_fst D b a : fst (mv D b a) = fst a.
  Proof. unfold mv. destruct in_dec; [|reflexivity]. destruct b; [destruct tident_eq_dec|]; reflexivity. Qed.
  Lemma dep_target_with d i : dep_target (dep_with d i) = i.
  Proof. destruct d; reflexivity. Qed.

  Lemma mv_other D b a old : dep_target (snd a) <> old -> mv (old :: D) b a = mv D b a.
  Proof.
    intros N. unfold mv. destruct (in_dec tident_eq_dec (dep_target (snd a)) (old :: D)) as [[E|I]|NI];
      destruct (in_dec tident_eq_dec (dep_target (snd a)) D) as [I'|NI']; try congruence; try reflexivity; try tauto.
    all: exfalso; apply NI; cbn; auto.
  Qed.
  Lemma mv_base D b a old : b = Some old -> mv (old :: D) b a = mv D b a.
  Proof.
    intros ->. destruct (tident_eq_dec (dep_target (snd a)) old) as [E|N]; [|apply mv_other; exact N].
    unfold mv. rewrite E. destruct (tident_eq_dec old old) as [_|]; [|congruence].
    destruct in_dec; destruct in_dec; reflexivity.
  Qed.
  Lemma mv_target D b a old : ti_schema old <> main -> ~ In old D ->
    (dep_target (snd (mv D b a)) = old <-> dep_target (snd a) = old).
  Proof.
    intros S ND. unfold mv. destruct in_dec as [I|NI]; [|tauto].
    assert (dep_target (snd a) <> old) by congruence.
    destruct b as [b|]; [destruct (tident_eq_dec b (dep_target (snd a)))|]; cbn; rewrite ?dep_target_with;
      split; intros E; try congruence; exfalso; apply S; rewrite <- E; reflexivity.
  Qed.

  Lemma insert_moves D b old k d : forall deps,
    ti_schema old <> main -> ~ In old D -> b <> Some old ->
    NoDup (map fst deps) -> NoDup (map (fun x => dep_target (snd x)) deps) ->
    In (k, d) deps -> dep_target d = old ->
    NodeModel.dep_insert k (dep_with d (ti_with_schema old main)) (map (mv D b) deps) = map (mv (old :: D) b) deps.
  Proof.
    induction deps as [|a deps IH]; intros S ND NB K T I E; [destruct I|].
    cbn in K, T. apply NoDup_cons_iff in K as [K1 K2]. apply NoDup_cons_iff in T as [T1 T2]. cbn [map NodeModel.dep_insert].
    destruct (mv D b a) as [k' d'] eqn:Ma. assert (Fa : k' = fst a) by (rewrite <- (mv_fst D b a), Ma; reflexivity).
    destruct I as [->|I].
    - cbn in Fa. subst k'. destruct (NodeModel.dep_key_eq_dec k k) as [_|]; [|congruence]. f_equal.
      + unfold mv. cbn. rewrite E. destruct (tident_eq_dec old old) as [_|]; [|congruence].
        destruct b as [b|]; [|reflexivity]. destruct (tident_eq_dec b old); [congruence|reflexivity].
      + apply map_ext_in. intros x X. symmetry. apply mv_other. intros EX. apply T1. cbn. rewrite E, <- EX.
        apply (in_map (fun x => dep_target (snd x))). exact X.
    - destruct (NodeModel.dep_key_eq_dec k k') as [Ek|_].
      + exfalso. apply K1. rewrite <- Fa, <- Ek. exact (in_map fst _ _ I).
      + rewrite IH by assumption. f_equal. rewrite <- Ma. symmetry. apply mv_other.
        intros EX. apply T1. rewrite EX, <- E. exact (in_map (fun x => dep_target (snd x)) _ _ I).
  Qed.

  (** The body of the inner loop on one node: [base] is the redefined component of the node, [b] that of the node
      it was made from. *)
  Lemma found_moves D b base e old deps :
    r_deps e = map (mv D b) deps -> r_base e = base ->
    ti_schema old <> main -> ~ In old D ->
    (forall a, In a deps -> dep_target (snd a) = old -> (b = Some old <-> base = Some old)) ->
    NoDup (map fst deps) -> NoDup (map (fun x => dep_target (snd x)) deps) ->
    match find (points_to old e) (r_deps e) with
    | Some (k, d) =>
        (exists a, In a deps /\ dep_target (snd a) = old) /\ b <> Some old /\ base <> Some old /\
        NodeModel.dep_insert k (dep_with d (ti_with_schema old main)) (r_deps e) = map (mv (old :: D) b) deps
    | None => map (mv D b) deps = map (mv (old :: D) b) deps /\
              forall a, In a deps -> dep_target (snd a) = old -> b = Some old
    end.
  Proof.
    intros RD RB S ND BB K T. rewrite RD. destruct (find (points_to old e) (map (mv D b) deps)) as [[k d]|] eqn:F.
    - apply find_some in F as [I PT]. unfold points_to in PT. rewrite RB in PT. apply andb_true_iff in PT as [P1 P2]. cbn in P1.
      destruct (tident_eq_dec (dep_target d) old) as [Et|]; [|discriminate].
      assert (NB : base <> Some old).
      { intros ->. destruct (tident_eq_dec old old); [discriminate|congruence]. }
      apply in_map_iff in I as (a & Ea & I). assert (Ta : dep_target (snd a) = old).
      { apply (mv_target D b a old S ND). rewrite Ea. exact Et. }
      assert (Fa : fst a = k) by (rewrite <- (mv_fst D b a), Ea; reflexivity).
      assert (Nb : b <> Some old) by (intros Eb; apply NB; apply (BB a I Ta); exact Eb).
      assert (Sa : snd a = d).
      { unfold mv in Ea. rewrite Ta in Ea. destruct in_dec; [contradiction|]. rewrite Ea. reflexivity. }
      split; [eauto|]. split; [exact Nb|]. split; [exact NB|].
      apply insert_moves; try assumption. rewrite <- Fa, <- Sa, <- surjective_pairing. exact I.
    - assert (H : forall a, In a deps -> dep_target (snd a) = old -> b = Some old).
      { intros a I Ta. assert (PF := find_none _ _ F (mv D b a) (in_map _ _ _ I)). unfold points_to in PF. rewrite RB in PF.
        destruct (tident_eq_dec (dep_target (snd (mv D b a))) old) as [Ey|N]; [|exfalso; apply N; apply mv_target; assumption].
        cbn in PF. apply negb_false_iff in PF. destruct base as [b'|]; [|discriminate].
        destruct (tident_eq_dec b' old) as [Eb|]; [|discriminate]. apply (BB a I Ta). congruence. }
      split; [|exact H]. apply map_ext_in. intros a I.
      destruct (tident_eq_dec (dep_target (snd a)) old) as [Ta|Ta].
      + symmetry. apply mv_base. exact (H a I Ta).
      + symmetry. apply mv_other. exact Ta.
  Qed.
End Move.
