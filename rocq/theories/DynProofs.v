(** Proofs about dynamic types. *)
From Verif Require Import SerHelperModel DeModel DeSpec DeProofs WrapModel WrapProofs GenModel TextModel TextSpec TextProofs
  AnySimpleProofs TagSpec TagProofs DynModel DynSpec.
Local Open Scope string_scope.

Lemma find_unique {A} (f : A -> bool) l y :
  In y l -> f y = true -> (forall z, In z l -> f z = true -> z = y) -> find f l = Some y.
Proof.
  intros I F U. destruct (find f l) as [z|] eqn:E.
  - apply find_some in E as [? ?]. rewrite (U z); auto.
  - rewrite (find_none f l E y I) in F. discriminate.
Qed.

Lemma find_here {A} (f : A -> bool) before y after :
  (forall z, In z before -> f z = false) -> f y = true -> find f (before ++ y :: after) = Some y.
Proof.
  intros N Y. induction before as [|z l IH]; cbn; [rewrite Y; reflexivity|].
  rewrite (N z (or_introl eq_refl)). apply IH. intros w I. apply N. right. exact I.
Qed.

Lemma find_exact {A} (f : A -> bool) l : (forall y z, In y l -> In z l -> f y = true -> f z = true -> y = z) ->
  forall y, find f l = Some y <-> In y l /\ f y = true.
Proof.
  intros U y. split; [apply find_some|]. intros [I F]. apply find_unique; auto.
Qed.

Lemma expanded_fun els v x y : expanded els v x -> expanded els v y -> x = y.
Proof.
  unfold expanded. destruct (split_colon v) as [[p l]|].
  - intros (a & A & ->) (b & B & ->). rewrite (stands_for_fun _ _ _ _ A B). reflexivity.
  - intros [(a & A & ->)|[A ->]] [(b & B & ->)|[B ->]]; try reflexivity.
    + destruct A as [A _], B as [B _]. congruence.
    + destruct (B a A).
    + destruct (A b B).
Qed.

Lemma app_assoc_s (a b c : string) : (a ++ b) ++ c = a ++ b ++ c.
Proof. induction a; cbn; [reflexivity|f_equal; assumption]. Qed.
Lemma app_nil_s (a : string) : a ++ "" = a.
Proof. induction a; cbn; [reflexivity|f_equal; assumption]. Qed.

Lemma trimmed_self v w : trimmed_of v v -> trimmed_of v w -> w = v.
Proof.
  intros (a0 & b0 & _ & _ & F & L) (a & b & E & W & _ & _).
  assert (A : a = "").
  { destruct a as [|c a]; [reflexivity|]. pose proof (W c (or_introl eq_refl)) as X.
    rewrite (F c (a ++ w ++ b)) in X; [discriminate|exact E]. }
  assert (B : b = "").
  { destruct (string_dec b "") as [|N]; [assumption|]. exfalso.
    assert (H : exists r c, b = r ++ String c "").
    { clear - N. induction b as [|c b IH]; [congruence|]. destruct b as [|c' b]; [exists "", c; reflexivity|].
      destruct IH as (r & x & E); [discriminate|]. exists (String c r), x. rewrite E. reflexivity. }
    destruct H as (r & c & ->).
    assert (X : ascii_ws c = true).
    { apply W. rewrite A. cbn [append]. clear. induction r as [|x r IH]; [left; reflexivity|right; exact IH]. }
    rewrite (L c (a ++ w ++ r)) in X; [discriminate|]. rewrite E.
    rewrite !app_assoc_s. reflexivity. }
  subst a b. cbn [append] in E. rewrite app_nil_s in E. symmetry. exact E.
Qed.

Section Choose.
  Variables (charref : bytes -> option bytes) (ops : list dop) (h : dhelper).
  Hypothesis (HW : well_nested (events_of ops)) (HR : dh_run dhelper_default ops = Some h).
  Let els := enclosing (events_of ops).
  Let r := d_res h.

  Lemma unprefixed_is v ns name : split_colon v = None -> name_is r v ns name = true <-> v = name.
  Proof.
    intros S. unfold name_is. destruct ns; [|apply String.eqb_eq].
    unfold resolve_local_name, dh_resolve, resolve. rewrite S. apply String.eqb_eq.
  Qed.

  Lemma name_exact v ns name names : split_colon name = None -> clear_name els v names -> In (ns, name) names ->
    name_is r v ns name = true <-> expanded els v (ns, name).
  Proof.
    intros S C I. unfold clear_name in C. destruct (split_colon v) as [[p l]|] eqn:V.
    - destruct ns as [u|].
      + pose proof (prefixed_exact ops h (EStart v []) v p l u name HW HR) as P. apply P; auto. exists []. auto.
      + cbn. split.
        * intros E. apply String.eqb_eq in E. congruence.
        * unfold expanded. rewrite V. intros (u & _ & E). discriminate.
    - rewrite (unprefixed_is v ns name V). split.
      + intros ->. apply C, I.
      + unfold expanded. rewrite V. intros [(u & _ & E)|[_ E]]; congruence.
  Qed.

  Lemma type_attr_exact attrs a : In a attrs -> ~ In "type" (map fst attrs) ->
    (forall p l, split_colon (fst a) = Some (p, l) -> p = "xmlns" -> l <> "type") ->
    type_attr r a = true <-> xsi_type_attribute els a.
  Proof.
    intros I N X. unfold type_attr, xsi_type_attribute. destruct (split_colon (fst a)) as [[p l]|] eqn:S.
    - specialize (X p l eq_refl).
      destruct (String.eqb_spec p "xmlns") as [->|P].
      { unfold dh_resolve, resolve. rewrite S. cbn [String.eqb Ascii.eqb]. cbn. split; [discriminate|].
        intros (q & E & Q). injection E as <- ->. exfalso. destruct Q as [[Q _]|(_ & Q & _)]; [discriminate|congruence]. }
      destruct (prefix_resolved ops h p l (fst a) true HW HR S P) as [Q L].
      pose proof (prefixed_bound (d_res h) (fst a) p l true S) as B.
      fold r in Q, L, B. destruct (dh_resolve r (fst a) true) as [[|u|u] l0]; cbn in Q, L, B; subst l0; [congruence| |].
      + rewrite Bool.andb_true_iff, !String.eqb_eq. split.
        * intros [-> ->]. exists p. auto.
        * intros (q & E & T). injection E as <- ->. split; [|reflexivity]. apply (stands_for_fun _ _ _ _ Q T).
      + split; [discriminate|]. intros (q & E & T). injection E as <- ->. destruct (Q _ T).
    - unfold dh_resolve, resolve. rewrite S. cbn [fst snd negb]. rewrite String.eqb_eq. split.
      + intros E. destruct N. rewrite <- E. apply in_map, I.
      + intros (p & E & _). discriminate.
  Qed.

  Variable d : dtype.
  Hypothesis HP : plain_dynamic d.

  Lemma in_names k y : (k = DynType \/ k = DynElement) -> In y (t_entries d) -> y_kind y = k ->
    In (y_ns y, y_name y) (entry_names k d).
  Proof.
    intros K I E. unfold entry_names. apply in_flat_map. exists y. split; [exact I|]. rewrite E.
    destruct K as [-> | ->]; left; reflexivity.
  Qed.

  Lemma is_type_iff y : is_type y = true <-> y_kind y = DynType.
  Proof. unfold is_type. destruct (y_kind y); split; congruence. Qed.
  Lemma is_element_iff y : is_element y = true <-> y_kind y = DynElement.
  Proof. unfold is_element. destruct (y_kind y); split; congruence. Qed.

  Lemma match_exact k sel v : (k = DynType \/ k = DynElement) -> (forall y, sel y = true <-> y_kind y = k) ->
    clear_name els v (entry_names k d) ->
    forall y, first_match r v sel (t_entries d) = Some y <->
      In y (t_entries d) /\ y_kind y = k /\ expanded els v (y_ns y, y_name y).
  Proof.
    intros K S C. destruct HP as (_ & NC & U & _).
    assert (E : forall y, In y (t_entries d) -> (sel y && name_is r v (y_ns y) (y_name y) = true <->
      y_kind y = k /\ expanded els v (y_ns y, y_name y))).
    { intros y I. rewrite Bool.andb_true_iff, S. split; intros [A B]; (split; [exact A|]);
        eapply (name_exact v (y_ns y) (y_name y)); eauto using in_names. }
    intros y. unfold first_match. rewrite find_exact.
    - split; intros [I F]; (split; [exact I|]); apply (E y I), F.
    - intros y0 z I J F G. apply (E y0 I) in F as [F1 F2]. apply (E z J) in G as [G1 G2].
      pose proof (expanded_fun _ _ _ _ F2 G2) as Q. injection Q as Q1 Q2. apply U; congruence.
  Qed.

  Variables (n : bytes) (attrs : list attr).
  Hypothesis HC : clear_instance els n attrs d.

  Lemma choose_type_exact y :
    choose_type d r n attrs = Some y <-> type_entry charref els n attrs d (t_ns d, t_name d) y.
  Proof.
    destruct HC as (CN & ND & NT & NX & UX & VX). destruct HP as (TC & NC & U & U4 & U5).
    unfold choose_type, type_entry.
    assert (ON : name_is r n (t_ns d) (t_name d) = true <-> expanded els n (t_ns d, t_name d)).
    { eapply name_exact; eauto. left. reflexivity. }
    destruct (existsb is_type (t_entries d)) eqn:EX.
    2:{ cbn. split; [discriminate|]. intros (I & K & _). exfalso.
        assert (existsb is_type (t_entries d) = true); [|congruence]. apply existsb_exists. exists y. split; [exact I|].
        apply is_type_iff, K. }
    destruct (name_is r n (t_ns d) (t_name d)) eqn:EN; cbn [andb].
    2:{ split; [discriminate|]. intros (_ & _ & X & _). apply ON in X. discriminate. }
    assert (EN' : expanded els n (t_ns d, t_name d)) by (apply ON; reflexivity). clear EN ON EX.
    assert (TA : forall a, In a attrs -> (type_attr r a = true <-> xsi_type_attribute els a)).
    { intros a I. eapply type_attr_exact; eauto. }
    unfold xsi_type. rewrite first_attrs_nodup; [|exact ND|intros k _ []].
    destruct (find (type_attr r) attrs) as [a|] eqn:F; cbn [option_map].
    - apply find_some in F as [I F]. apply TA in F; [|exact I]. destruct (VX a I F) as (NA & TR & CL).
      rewrite (match_exact DynType is_type (snd a)); [|auto|exact is_type_iff|exact CL].
      split.
      + intros (J & K & X). repeat split; auto. left. exists a, (snd a), (snd a).
        repeat split; auto. apply AnySimpleProofs.unescape_plain, NA.
      + intros (J & K & _ & [(b & t & v & Ib & Tb & Un & Tr & Ex)|[NS _]]); [|destruct (NS a I F)].
        rewrite (UX b a Ib I Tb F) in Un. rewrite AnySimpleProofs.unescape_plain in Un by exact NA.
        injection Un as <-. rewrite (trimmed_self _ _ TR Tr) in Ex. auto.
    - assert (NS : states_no_type els attrs).
      { intros a I T. apply TA in T; [|exact I]. rewrite (find_none _ _ F a I) in T. discriminate. }
      unfold default_name. destruct (find (fun y0 => is_type y0 && y_concrete y0) (t_entries d)) as [c|] eqn:G; cbn [option_map].
      + apply find_some in G as [I G]. apply Bool.andb_true_iff in G as [G1 G2]. apply is_type_iff in G1.
        assert (M : first_match r (y_name c) is_type (t_entries d) = Some c).
        { apply in_split in I as (before & after & ES). rewrite ES. unfold first_match. apply find_here.
          - intros z Z. destruct (is_type z) eqn:KZ; [|reflexivity]. apply is_type_iff in KZ. cbn [andb].
            destruct (name_is r (y_name c) (y_ns z) (y_name z)) eqn:X; [|reflexivity]. apply unprefixed_is in X.
            + destruct (U4 _ _ _ z ES G1 G2 Z KZ). symmetry. exact X.
            + apply NC. rewrite ES. apply in_or_app. right. left. reflexivity.
          - apply Bool.andb_true_iff. split; [apply is_type_iff, G1|]. apply unprefixed_is; [|reflexivity].
            apply NC. rewrite ES. apply in_or_app. right. left. reflexivity. }
        rewrite M. split.
        * intros E. injection E as <-. repeat split; auto.
        * intros (J & K & _ & [(b & t & v & Ib & Tb & _)|[_ CC]]); [destruct (NS b Ib Tb)|]. f_equal. apply U5; auto.
      + split; [discriminate|]. intros (J & K & _ & [(b & t & v & Ib & Tb & _)|[_ CC]]); [destruct (NS b Ib Tb)|].
        pose proof (find_none _ _ G y J) as X. cbn in X. rewrite (proj2 (is_type_iff y) K), CC in X. discriminate.
  Qed.

  Lemma choose_exact y : choose d r n attrs = Some y <-> denoted charref els n attrs d (t_ns d, t_name d) y.
  Proof.
    assert (CN : clear_name els n (entry_names DynElement d)).
    { destruct HC as [CN _]. unfold clear_name in *. destruct (split_colon n) as [[p l]|]; [exact CN|].
      intros ns I. apply CN. right. exact I. }
    pose proof (match_exact DynElement is_element n (or_intror eq_refl) is_element_iff CN y) as M.
    unfold choose, denoted. destruct (choose_type d r n attrs) as [z|] eqn:T.
    - split.
      + intros E. injection E as <-. left. apply choose_type_exact, T.
      + apply choose_type_exact in T as T'. intros [E|[N _]]; [|destruct (N z T')]. apply choose_type_exact in E. congruence.
    - rewrite M. split.
      + intros E. right. split; [|exact E]. intros z Z. apply choose_type_exact in Z. congruence.
      + intros [E|[_ E]]; [|exact E]. apply choose_type_exact in E. congruence.
  Qed.
End Choose.

Lemma chosen_read {V D} (types : nat -> deser V D) d h e n a y : (e = EStart n a \/ e = EEmpty n a) ->
  choose d (d_res h) n a = Some y -> read_by types d h e (y_target y).
Proof. intros [-> | ->] C; unfold read_by; cbn [dyn_deser de_init dyn_init]; rewrite C; reflexivity. Qed.

Section Written.
  Context {V S : Type} (mk : nat -> V -> option bytes -> bool -> outcome kind S) (next : ser_next S) (own : nat -> bytes).
  Hypothesis HM : writes_tag mk next own.
  Context {U D : Type} (types : nat -> deser U D).
  Variables (charref : bytes -> option bytes).

  Lemma no_types (els : list (bytes * list attr)) (a : list attr) :
    (forall k, In k (map fst a) -> k <> "type" /\ forall p, split_colon k <> Some (p, "type")) ->
    forall x, In x a -> ~ xsi_type_attribute els x.
  Proof. intros N x I (p & E & _). destruct (N (fst x) (in_map fst a x I)) as [_ M]. exact (M p E). Qed.

  Lemma clear_no_types els (a : list attr) d :
    NoDup (map fst a) ->
    (forall k, In k (map fst a) -> k <> "type" /\ forall p, split_colon k <> Some (p, "type")) ->
    clear_attributes els a d.
  Proof.
    intros ND N. pose proof (no_types els a N) as X. repeat split; auto.
    - intros I. destruct (N _ I) as [M _]. congruence.
    - intros x I p l E _ ->. destruct (N _ (in_map fst a x I)) as [_ M]. exact (M p E).
    - intros x y I J T. destruct (X x I T).
    - destruct (X a0 H H0).
    - destruct (X a0 H H0).
    - destruct (X a0 H H0).
  Qed.

  Lemma written (d : dtype) (v : boxed V) name root s h e s' h' ops dh :
    dyn_serializer mk d v name root = Ok s -> dser_next next s h = (Some (Ok e), s', h') ->
    well_nested (events_of (ops ++ [DEvent e])) -> dh_run dhelper_default (ops ++ [DEvent e]) = Some dh ->
    plain_dynamic d -> plain_tags own (enclosing (events_of (ops ++ [DEvent e]))) d name ->
    (exists y, In y (t_entries d) /\ y_kind y <> DynOther /\ y_target y = bx_type v) ->
    read_by types d dh e (bx_type v).
  Proof.
    intros HS HN HW HR HP (HX & HF & HT & HY) (y0 & I0 & K0 & T0).
    set (els := enclosing (events_of (ops ++ [DEvent e]))) in *.
    assert (FIN : forall n a y, (e = EStart n a \/ e = EEmpty n a) -> clear_instance els n a d ->
      denoted charref els n a d (t_ns d, t_name d) y -> y_target y = bx_type v -> read_by types d dh e (bx_type v)).
    { intros n a y E C DN <-. eapply chosen_read; [exact E|]. eapply choose_exact; eauto. }
    unfold dyn_serializer in HS.
    destruct (existsb (fun y => by_xsi_type d y && Nat.eqb (y_target y) (bx_type v)) (t_entries d)) eqn:EX.
    - apply existsb_exists in EX as (y & I & B). apply Bool.andb_true_iff in B as [B E]. apply Nat.eqb_eq in E.
      unfold by_xsi_type in B. apply Bool.andb_true_iff in B as [B _]. apply Bool.andb_true_iff in B as [K NC].
      apply is_type_iff in K. apply Bool.negb_true_iff in NC.
      destruct (mk (bx_type v) (bx_value v) None root) as [s0|k|] eqn:M; try discriminate. injection HS as <-.
      cbn [dser_next] in HN. unfold xser_next in HN.
      destruct (next s0 h) as [[[[e0|k|]|] s1] h1] eqn:NX; try discriminate HN.
      destruct (HM _ _ _ _ _ M _ _ _ _ NX) as (a & HE & ND & NT). cbn in HE.
      pose proof (HY y I) as Y. rewrite K in Y. destruct Y as (YC & (YE & YN) & _ & YA & YT). rewrite E in YE, YN, YA, YT.
      set (nm := match name with Some n => n | None => t_tag d end) in *. destruct HT as [TE TN].
      assert (R : exists h2 h3 n' a', xsi_rewrite nm root (own (bx_type v)) a h2 = (n', a', h3) /\ (e = EStart n' a' \/ e = EEmpty n' a')).
      { destruct HE as [-> | ->]; cbn in HN; destruct (xsi_rewrite nm root (own (bx_type v)) a (begin_ns_scope h1)) as [[n' a'] h3] eqn:RW;
          injection HN as <- _ _; exists (begin_ns_scope h1), h3, n', a'; auto. }
      destruct R as (h2 & h3 & n' & a' & RW & EE). clear HN HE NX.
      destruct (rewrite_spec _ _ _ _ _ _ _ _ RW) as (RN & _ & RT & _).
      assert (Q : own (bx_type v) <> nm).
      { intros Q. rewrite Q in YE. pose proof (expanded_fun _ _ _ _ YE TE) as Z. apply YC in Z. congruence. }
      destruct (RT Q ND) as (x & HXs & RA). subst n' a'. clear RW RT.
      set (rest := filter (fun a0 : attr => negb (String.eqb (fst a0) "xsi:type" || String.eqb (fst a0) "xmlns:xsi")) a) in *.
      assert (RI : forall z, In z rest -> In z a /\ fst z <> "xsi:type" /\ fst z <> "xmlns:xsi").
      { intros z Z. apply filter_In in Z as [Z1 Z2]. apply Bool.negb_true_iff, Bool.orb_false_iff in Z2 as [Z2 Z3].
        rewrite String.eqb_neq in Z2, Z3. auto. }
      assert (RD : NoDup (map fst rest)).
      { clear - ND. unfold rest. induction a as [|z a IH]; [constructor|]. cbn [map] in ND. apply NoDup_cons_iff in ND as [N1 N2].
        cbn [filter]. destruct (negb _); [|auto]. cbn [map]. constructor; [|auto]. intros Z. apply N1.
        apply in_map_iff in Z as (w & <- & Z). apply filter_In in Z as [Z _]. apply in_map, Z. }
      set (full := (x ++ ("xsi:type", own (bx_type v)) :: rest)%list) in *.
      assert (XA : xsi_type_attribute els ("xsi:type", own (bx_type v))) by (exists "xsi"; split; [reflexivity|exact HX]).
      assert (FI : forall z, In z full -> z = ("xsi:type", own (bx_type v)) \/ z = ("xmlns:xsi", XSI_NS) \/ In z rest).
      { intros z Z. unfold full in Z. apply in_app_or in Z as [Z|[Z|Z]]; auto. destruct HXs as [-> | ->]; [destruct Z|].
        destruct Z as [Z|[]]. auto. }
      assert (FX : forall z, In z full -> xsi_type_attribute els z -> z = ("xsi:type", own (bx_type v))).
      { intros z Z T. destruct (FI z Z) as [ZZ|[->|ZZ]]; [exact ZZ| |].
        - destruct T as (p & TE' & _). cbn in TE'. injection TE' as _ TE'. discriminate.
        - destruct (RI z ZZ) as [ZA _]. destruct (no_types els a NT z ZA T). }
      assert (FN : NoDup (map fst full)).
      { unfold full. rewrite map_app. cbn [map]. 
        assert (N2 : NoDup ("xsi:type" :: map fst rest)).
        { constructor; [|exact RD]. intros Z. apply in_map_iff in Z as (w & Z1 & Z2). destruct (RI w Z2) as (_ & Z3 & _). congruence. }
        destruct HXs as [-> | ->]; [exact N2|]. cbn [map app]. constructor; [|exact N2].
        intros [Z|Z]; [discriminate|]. apply in_map_iff in Z as (w & Z1 & Z2). destruct (RI w Z2) as (_ & _ & Z3). exact (Z3 Z1). }
      apply (FIN nm full y EE); [| |exact E].
      + split; [exact TN|]. split; [exact FN|]. split; [|split; [|split]].
        * intros Z. apply in_map_iff in Z as (w & Z1 & Z2). destruct (FI w Z2) as [->|[->|ZZ]]; try discriminate.
          destruct (RI w ZZ) as [ZA _]. destruct (NT _ (in_map fst _ _ ZA)). congruence.
        * intros z Z p l ZE -> ->. destruct (FI z Z) as [->|[->|ZZ]]; try discriminate.
          destruct (RI z ZZ) as [ZA _]. destruct (NT _ (in_map fst _ _ ZA)) as [_ ZN]. exact (ZN _ ZE).
        * intros z w Z1 Z2 T1 T2. rewrite (FX z Z1 T1), (FX w Z2 T2). reflexivity.
        * intros z Z T. rewrite (FX z Z T). cbn [snd]. auto.
      + left. split; [exact I|]. split; [exact K|]. split; [exact TE|]. left.
        exists ("xsi:type", own (bx_type v)), (own (bx_type v)), (own (bx_type v)).
        split; [unfold full; apply in_or_app; right; left; reflexivity|]. split; [exact XA|].
        split; [apply AnySimpleProofs.unescape_plain, YA|]. split; [exact YT|exact YE].
    - destruct (find (fun y => is_element y && Nat.eqb (y_target y) (bx_type v)) (t_entries d)) as [y|] eqn:F.
      + apply find_some in F as [I B]. apply Bool.andb_true_iff in B as [K E]. apply is_element_iff in K. apply Nat.eqb_eq in E.
        destruct (mk (bx_type v) (bx_value v) (Some (y_tag y)) root) as [s0|k|] eqn:M; try discriminate. injection HS as <-.
        cbn [dser_next] in HN. destruct (next s0 h) as [[o s1] h1] eqn:NX. injection HN as -> _ _.
        destruct (HM _ _ _ _ _ M _ _ _ _ NX) as (a & HE & ND & NT). cbn in HE.
        pose proof (HY y I) as Y. rewrite K in Y. destruct Y as ((YE & YN) & YO).
        apply (FIN (y_tag y) a y HE); [split; [exact YN|apply clear_no_types; assumption]| |exact E].
        right. split; [|split; auto]. intros z (ZI & ZK & ZE & _). 
        pose proof (expanded_fun _ _ _ _ YE ZE) as Z. exact (YO Z z ZI ZK).
      + assert (K : y_kind y0 = DynType).
        { destruct (y_kind y0) eqn:K; [reflexivity| |congruence]. pose proof (find_none _ _ F y0 I0) as Z. cbn in Z.
          rewrite (proj2 (is_element_iff y0) K), T0, Nat.eqb_refl in Z. discriminate. }
        assert (C : y_concrete y0 = true).
        { destruct (y_concrete y0) eqn:C; [reflexivity|]. exfalso.
          assert (X : existsb (fun y => by_xsi_type d y && Nat.eqb (y_target y) (bx_type v)) (t_entries d) = true); [|congruence].
          apply existsb_exists. exists y0. split; [exact I0|]. rewrite T0, Nat.eqb_refl, Bool.andb_true_r.
          unfold by_xsi_type. rewrite (proj2 (is_type_iff y0) K), C. cbn. apply Bool.negb_true_iff.
          destruct (existsb (fun z => is_element z && Nat.eqb (y_meta z) (y_meta y0)) (t_entries d)) eqn:Q; [|reflexivity]. apply existsb_exists in Q as (z & Z1 & Z2).
          pose proof (find_none _ _ F z Z1) as Z3. cbn in Z3.
          apply Bool.andb_true_iff in Z2 as [Z2 Z4]. apply Nat.eqb_eq in Z4.
          rewrite Z2, (HF z y0 Z1 I0 Z4), T0, Nat.eqb_refl in Z3. discriminate. }
        destruct (mk (bx_type v) (bx_value v) None root) as [s0|k|] eqn:M; try discriminate. injection HS as <-.
        cbn [dser_next] in HN. destruct (next s0 h) as [[o s1] h1] eqn:NX. injection HN as -> _ _.
        destruct (HM _ _ _ _ _ M _ _ _ _ NX) as (a & HE & ND & NT). cbn in HE.
        pose proof (HY y0 I0) as Y. rewrite K in Y. destruct Y as (YC & (YE & YN) & YG & _). rewrite T0 in YE, YN, YG.
        rewrite (proj1 YC C) in YE.
        apply (FIN (own (bx_type v)) a y0 HE); [split; [exact (YG C)|apply clear_no_types; assumption]| |exact T0].
        left. split; [exact I0|]. split; [exact K|]. split; [exact YE|]. right. split; [|exact C].
        exact (no_types els a NT).
  Qed.
End Written.
