(** Proofs about the alternatives of elements and types. *)
From Verif Require Import Base.
From Coq Require FinFun.
From Verif Require Import SubstModel SubstSpec SubstProofs SubstFixProofs.

Section Main.
  Variables (nodes : list node) (dynamic : nat -> bool) (f F : nat).
  Hypothesis OR : ordered nodes.
  Hypothesis FL : length nodes < f.
  Hypothesis FF : 2 * f + 1 <= F.
  Variable ts : types.
  Hypothesis IV : inv nodes dynamic f F ts nodes.

  Definition members := mm nodes F nodes.
  Definition derivations := dm nodes f nodes.

  Lemma owner_e n : (exists e, In (NElement e) nodes /\ e_name e = n) \/ (forall x, In x nodes -> ~ is_element n x).
  Proof.
    destruct (existsb (fun x => match x with NElement e => Nat.eqb (e_name e) n | _ => false end) nodes) eqn:E.
    - left. apply existsb_exists in E as (x & X & E). destruct x as [e|c|s]; try discriminate. apply Nat.eqb_eq in E. eauto.
    - right. intros x X T. rewrite <- not_true_iff_false in E. apply E. apply existsb_exists. exists x. split; [exact X|].
      destruct x; try contradiction. apply Nat.eqb_eq. exact T.
  Qed.
  Lemma owner_t n : (exists x, In x nodes /\ is_type n x) \/ (forall x, In x nodes -> ~ is_type n x).
  Proof.
    destruct (existsb (fun x => match x with NType c => Nat.eqb (c_name c) n | NSimple m => Nat.eqb m n | _ => false end) nodes) eqn:E.
    - left. apply existsb_exists in E as (x & X & E). exists x. split; [exact X|]. destruct x; try discriminate; apply Nat.eqb_eq in E; exact E.
    - right. intros x X T. rewrite <- not_true_iff_false in E. apply E. apply existsb_exists. exists x. split; [exact X|].
      destruct x; try contradiction; apply Nat.eqb_eq; exact T.
  Qed.
  Lemma owned k n v : ts (k, n) = Some v ->
    (tkind k = true /\ exists x, In x nodes /\ is_type n x) \/ (tkind k = false /\ exists e, In (NElement e) nodes /\ e_name e = n).
  Proof.
    intros E. destruct (tkind k) eqn:K.
    - left. split; [reflexivity|]. destruct (owner_t n) as [H|H]; [exact H|]. rewrite (iv_nt _ _ _ _ _ _ IV k n K H) in E. discriminate.
    - right. split; [reflexivity|]. destruct (owner_e n) as [H|H]; [exact H|]. rewrite (iv_ne _ _ _ _ _ _ IV k n K H) in E. discriminate.
  Qed.

  Lemma type_of_kind e : fst (type_of e) = KType \/ fst (type_of e) = KElementType.
  Proof. unfold type_of. destruct (e_type e); cbn; auto. Qed.
  Lemma base0_kind e : fst (fst (base0 e)) <> KElement.
  Proof. unfold base0. destruct (e_nillable e); cbn; [discriminate|]. destruct (type_of_kind e) as [-> | ->]; discriminate. Qed.
  Lemma base1_kind e : fst (fst (base1 e)) <> KElement.
  Proof. unfold base1. destruct (has_heads e); [discriminate|apply base0_kind]. Qed.
  Lemma conc_kind e : fst (conc e) <> KElement.
  Proof. unfold conc. destruct (snd (base1 e)); [discriminate|apply base1_kind]. Qed.

  (** Where the references of an element lead. *)
  Lemma leads_base0 e i : In (NElement e) nodes -> ts i = Some (VRef (fst (base0 e)) (snd (base0 e))) -> leads ts i (type_of e) (e_nillable e).
  Proof.
    intros IE E. pose proof (sh_nil _ _ _ (iv_e _ _ _ _ _ _ IV e IE)) as N. unfold base0 in E.
    assert (H : leads ts (type_of e) (type_of e) false) by (constructor; apply type_of_kind).
    destruct (e_nillable e); cbn in E.
    - apply (leads_ref ts i _ true _ false E). apply (leads_ref ts _ _ false _ false N). exact H.
    - apply (leads_ref ts i _ false _ false E). exact H.
  Qed.
  Lemma leads_subst e : In (NElement e) nodes -> has_heads e = true -> leads ts (KSubst, e_name e) (type_of e) (e_nillable e).
  Proof.
    intros IE H. apply leads_base0; [exact IE|]. rewrite (sh_subst _ _ _ (iv_e _ _ _ _ _ _ IV e IE)), H. reflexivity.
  Qed.
  Lemma leads_base1 e i : In (NElement e) nodes -> ts i = Some (VRef (fst (base1 e)) (snd (base1 e))) -> leads ts i (type_of e) (e_nillable e).
  Proof.
    intros IE E. unfold base1 in E. destruct (has_heads e) eqn:H; [|apply leads_base0; assumption]. cbn in E.
    apply (leads_ref ts i _ false _ _ E). apply leads_subst; assumption.
  Qed.
  Lemma leads_conc e : In (NElement e) nodes -> e_abstract e = false -> listed (members (e_name e)) = true -> leads ts (conc e) (type_of e) (e_nillable e).
  Proof.
    intros IE A L. unfold conc. destruct (snd (base1 e)) eqn:S1.
    - apply leads_base0; [exact IE|]. rewrite (sh_subst _ _ _ (iv_e _ _ _ _ _ _ IV e IE)). rewrite A, S1. fold members. rewrite L. cbn. rewrite orb_true_r. reflexivity.
    - unfold base1 in *. destruct (has_heads e) eqn:H; [apply leads_subst; assumption|]. unfold base0 in *. destruct (e_nillable e); [discriminate|].
      constructor. apply type_of_kind.
  Qed.
  Lemma good_member m : In (NElement m) nodes -> has_heads m = true -> good ts (KElement, e_name m) (type_of m) (e_nillable m).
  Proof.
    intros IM H. pose proof (sh_el _ _ _ (iv_e _ _ _ _ _ _ IV m IM)) as E. fold members in E.
    assert (B1 : base1 m = ((KSubst, e_name m), false)) by (unfold base1; rewrite H; reflexivity).
    assert (CC : conc m = (KSubst, e_name m)) by (unfold conc; rewrite B1; reflexivity).
    destruct (e_abstract m).
    - right. split; [reflexivity|]. eexists _, _, _. split; [exact E|]. rewrite B1. apply leads_subst; assumption.
    - destruct (listed (members (e_name m))).
      + right. split; [reflexivity|]. eexists _, _, _. split; [exact E|]. rewrite CC. apply leads_subst; assumption.
      + left. apply leads_base1; assumption.
  Qed.

  Lemma ts_clean : clean ts.
  Proof.
    assert (CASE : forall k n v, ts (k, n) = Some v ->
      match v with
      | VRef x _ => fst x <> KElement /\ k <> KType /\ k <> KElementType
      | VDyn (Some x) _ _ => fst x <> KElement
      | _ => True
      end).
    { intros k n v E. destruct (owned k n v E) as [[K (x & X & T)]|[K (e & IE & <-)]].
      - pose proof (iv_t _ _ _ _ _ _ IV x X) as S. destruct x as [e|c|s]; try contradiction; cbn in T; subst n; destruct S as [A B];
          destruct k; try discriminate K; rewrite ?A, ?B in E.
        + injection E as <-. destruct (isdyn dynamic c); cbn; [discriminate|exact Logic.I].
        + destruct (isdyn dynamic c); [injection E as <-; exact Logic.I|discriminate].
        + injection E as <-. exact Logic.I.
        + discriminate.
      - destruct (iv_e _ _ _ _ _ _ IV e IE) as [A B C D]. destruct k; try discriminate K; rewrite ?A, ?B, ?C, ?D in E.
        + injection E as <-. destruct (e_abstract e); [apply base1_kind|]. destruct (listed _); [apply conc_kind|].
          split; [apply base1_kind|split; discriminate].
        + destruct (e_type e); try discriminate; injection E as <-; exact Logic.I.
        + destruct (e_nillable e); [|discriminate]. injection E as <-. split; [destruct (type_of_kind e) as [-> | ->]; discriminate|split; discriminate].
        + destruct (_ || _)%bool; [|discriminate]. injection E as <-. split; [apply base0_kind|split; discriminate]. }
    constructor.
    - intros [k n] x b E. exact (proj1 (CASE _ _ _ E)).
    - intros [k n] x a ds E. exact (CASE _ _ _ E).
    - intros [k n] x b E. exact (proj2 (CASE _ _ _ E)).
  Qed.

  (** The alternatives before the correction. *)
  Definition own_e (e : element) : list (ident * derived) := if e_abstract e then [] else [((KElement, e_name e), Derived (conc e) Concrete)].
  Lemma variant_complex k b : In (k, b) (derivations (snd k)) \/ (exists n, In (k, b) (derivations n)) -> exists bb, ts (variant_of nodes dynamic k) = Some (VComplex bb).
  Proof.
    intros H. assert (I : exists n, In (k, b) (derivations n)) by (destruct H as [H|H]; eauto). clear H. destruct I as (n & I).
    apply in_dm in I as (x & o & X & B & _). destruct x as [e|c|s]; cbn in B; [| |discriminate].
    - destruct (e_type e) eqn:T; try discriminate. injection B as <- ->. rewrite variant_of_inline.
      rewrite (sh_inline _ _ _ (iv_e _ _ _ _ _ _ IV e X)), T. eauto.
    - injection B as <- _. rewrite (variant_of_type nodes dynamic OR c X). destruct (iv_t _ _ _ _ _ _ IV (NType c) X) as [V T].
      destruct (isdyn dynamic c); [rewrite V|rewrite T]; eauto.
  Qed.
  Lemma reach_mm e m : In (NElement e) nodes -> In (NElement m) nodes -> In (e_name m) (map fst (members (e_name e))) <-> reach nodes F m (e_name e).
  Proof.
    intros IE IM. unfold members. split.
    - intros I. apply in_map_iff in I as ([m' b] & E & I). cbn in E. subst m'. apply in_mm in I as (m' & IM' & N & d & L & _).
      rewrite (element_once nodes OR m m' IM IM' N). exists d. apply look_in. exact L.
    - intros (d & I). destruct (in_look _ _ _ I) as (d' & L). apply in_map_iff. exists (e_name m, Nat.eqb d' 0). split; [reflexivity|].
      apply in_mm. exists m. split; [exact IM|]. split; [reflexivity|]. exists d'. auto.
  Qed.
  Lemma entries_ok i t a ds : ts i = Some (VDyn t a ds) -> forall p, In p ds -> entry_ok ts i p.
  Proof.
    intros E p P. destruct i as [k n]. destruct (owned _ _ _ E) as [[K (x & X & T)]|[K (e & IE & <-)]].
    - right. pose proof (iv_t _ _ _ _ _ _ IV x X) as S. destruct x as [e|c|s]; try contradiction; cbn in T; subst n; destruct S as [A B];
        destruct k; try discriminate K; rewrite ?A, ?B in E; try discriminate.
      + destruct (isdyn dynamic c) eqn:D; [|discriminate]. injection E as <- <- <-. apply in_app_iff in P as [P|P].
        * unfold own in P. destruct (c_abstract c); [destruct P|]. destruct P as [<-|[]]. cbn. rewrite A. eauto.
        * apply in_map_iff in P as ([j b] & <- & P). cbn. apply (variant_complex j b). right. exists (c_name c). exact P.
      + destruct (isdyn dynamic c); discriminate.
    - left. destruct (iv_e _ _ _ _ _ _ IV e IE) as [A B C D]. fold members in C, D. destruct k; try discriminate K; rewrite ?A, ?B, ?C, ?D in E.
      + assert (PP : p = ((KElement, e_name e), Derived (conc e) Concrete) \/ In p (map ent (members (e_name e)))).
        { destruct (e_abstract e); [injection E as <- <- <-; right; exact P|]. destruct (listed _); [|discriminate]. injection E as <- <- <-. destruct P as [<-|P]; auto. }
        destruct PP as [->|PP].
        * split; [reflexivity|]. cbn. intros X. apply (conc_kind e). rewrite X. reflexivity.
        * apply in_map_iff in PP as ([m b] & <- & I). split; [reflexivity|]. cbn. intros [= X].
          apply (no_self nodes F OR e IE). apply reach_mm; [exact IE|exact IE|]. apply in_map_iff. exists (m, b). auto.
      + destruct (e_type e); discriminate.
      + destruct (e_nillable e); discriminate.
      + destruct (_ || _)%bool; discriminate.
  Qed.

  (** The map has finitely many keys. *)
  Lemma keys_exist : exists keys, NoDup keys /\ (forall i, In i keys <-> ts i <> None).
  Proof.
    pose (kinds := [KType; KElement; KElementType; KNillable; KSubst; KVariant]).
    pose (name := fun x => match x with NElement e => e_name e | NType c => c_name c | NSimple s => s end).
    exists (filter (fun i => match ts i with Some _ => true | None => false end) (nodup ident_dec (flat_map (fun x => map (fun k => (k, name x)) kinds) nodes))).
    split; [apply NoDup_filter, NoDup_nodup|]. intros i. rewrite filter_In, nodup_In. destruct (ts i) as [v|] eqn:E; [|split; [intros [_ X]; discriminate|congruence]].
    split; [congruence|]. intros _. split; [|reflexivity]. destruct i as [k n]. apply in_flat_map.
    assert (H : exists x, In x nodes /\ name x = n).
    { destruct (owned _ _ _ E) as [[_ (x & X & T)]|[_ (e & X & T)]]; [exists x|exists (NElement e)]; split; auto. destruct x; cbn in *; auto; contradiction. }
    destruct H as (x & X & <-). exists x. split; [exact X|]. apply in_map_iff. exists k. split; [reflexivity|]. destruct k; cbn; auto 10.
  Qed.

  (** * After the correction *)
  Variables (g : nat) (keys : list ident).
  Hypothesis ND : NoDup keys.
  Hypothesis KEYS : forall i, In i keys <-> ts i <> None.
  Lemma Forall2_in_r {A} (R : A -> A -> Prop) l l' : Forall2 R l l' -> forall q, In q l' -> exists p, In p l /\ R p q.
  Proof. intros H. induction H as [|x y l l' H1 H2 IH]; intros q []; [subst; exists x; cbn; auto|]. destruct (IH q H) as (p & P & Q). exists p. cbn. auto. Qed.
  Lemma Forall2_keys l l' : Forall2 (fixed ts) l l' -> map fst l' = map fst l.
  Proof. intros H. induction H as [|x y l l' (E & _) H2 IH]; [reflexivity|]. cbn. rewrite E, IH. reflexivity. Qed.
  Lemma has_heads_reach m h : reach nodes F m h -> has_heads m = true.
  Proof. intros (d & I). unfold has_heads. destruct (e_heads m); [|reflexivity]. destruct F; destruct I. Qed.

  Lemma main : exists ts', fix_derived_types (S (S g)) keys ts = Some ts' /\
    (forall e, In (NElement e) nodes -> e_abstract e = true \/ (exists m, member nodes m (e_name e)) -> element_listed nodes ts' e) /\
    (forall e, In (NElement e) nodes -> e_abstract e = false -> (forall m, ~ member nodes m (e_name e)) -> element_plain ts' e) /\
    (forall c, In (NType c) nodes -> c_abstract c = true \/ dynamic (c_name c) = true -> type_listed nodes dynamic ts' c).
  Proof.
    destruct (fix_loop ts g ts_clean entries_ok keys ts ND (fun _ _ => eq_refl) (fun _ => eq_refl)) as (ts' & E & SM & _ & DY).
    exists ts'. split; [exact E|].
    assert (REACH : forall e m, In (NElement m) nodes -> reach nodes F m e <-> member nodes (e_name m) e).
    { intros e m IM. apply (reach_member nodes f F OR FL FF m e IM). }
    assert (MEM : forall m h, member nodes m h -> exists em, In (NElement em) nodes /\ e_name em = m).
    { intros m h M. induction M; eauto. }
    split; [|split].
    - intros e IE H.
      assert (W : exists t, ts (KElement, e_name e) = Some (VDyn t (e_abstract e) (own_e e ++ map ent (members (e_name e)))) /\ (e_abstract e = false -> listed (members (e_name e)) = true)).
      { pose proof (sh_el _ _ _ (iv_e _ _ _ _ _ _ IV e IE)) as D. fold members in D. rewrite D. unfold own_e. destruct (e_abstract e) eqn:A.
        - eexists. split; [reflexivity|discriminate].
        - destruct H as [H|(m & M)]; [discriminate|]. destruct (MEM _ _ M) as (em & IM & <-).
          apply (REACH (e_name e) em IM) in M. apply (reach_mm e em IE IM) in M. destruct (members (e_name e)); [destruct M|]. cbn. eauto. }
      destruct W as (t & W & LI). assert (KI : In (KElement, e_name e) keys) by (apply KEYS; congruence).
      destruct (DY _ _ _ _ KI W) as (ds' & W' & F2). exists t, ds'. split; [exact W'|]. rewrite (Forall2_keys _ _ F2).
      assert (MK : map fst (map ent (members (e_name e))) = map (pair KElement) (map fst (members (e_name e)))) by (rewrite !map_map; reflexivity).
      assert (NS : ~ In (e_name e) (map fst (members (e_name e)))).
      { intros I. apply (no_self nodes F OR e IE). apply reach_mm; assumption. }
      assert (NDM : NoDup (map (pair KElement) (map fst (members (e_name e))))).
      { apply FinFun.Injective_map_NoDup; [intros a b [= ->]; reflexivity|]. apply (mm_nodup nodes dynamic f F OR _ nodes []). rewrite app_nil_r. reflexivity. }
      split; [|split].
      + rewrite map_app, MK. unfold own_e. destruct (e_abstract e); cbn; [exact NDM|]. constructor; [|exact NDM].
        intros I. apply in_map_iff in I as (x & [= ->] & I). exact (NS I).
      + intros k. rewrite map_app, in_app_iff, MK. split.
        * intros [I|I].
          -- unfold own_e in I. destruct (e_abstract e) eqn:A; [destruct I|]. destruct I as [<-|[]]. exists e. auto.
          -- apply in_map_iff in I as (m & <- & I). pose proof I as I0. apply in_map_iff in I as ([m' b] & X & I). cbn in X. subst m'.
             apply in_mm in I as (em & IM & -> & _). exists em. split; [exact IM|]. split; [reflexivity|]. right. apply REACH; [exact IM|].
             apply reach_mm; assumption.
        * intros (m & IM & -> & [[-> A]|M]).
          -- left. unfold own_e. rewrite A. left. reflexivity.
          -- right. apply in_map. apply reach_mm; [exact IE|exact IM|]. apply REACH; assumption.
      + intros m d IM I. destruct (Forall2_in_r _ _ _ F2 _ I) as ([k d0] & P & (X & R & L & _)). cbn in X, R, L. subst k. specialize (L eq_refl).
        apply in_app_iff in P as [P|P].
        * unfold own_e in P. destruct (e_abstract e) eqn:A; [destruct P|]. destruct P as [[= X <-]|[]].
          assert (m = e) as -> by (apply (element_once nodes OR); auto). cbn in R, L. split; [|rewrite R; split; [tauto|split; [discriminate|]]].
          -- apply (same_leads ts ts' _ _ _ SM). apply L. left. apply leads_conc; auto.
          -- intros _ S'. exfalso. apply (no_self nodes F OR e IE). apply REACH; [exact IE|]. apply member_direct; assumption.
        * apply in_map_iff in P as ([m' b] & [= X <-] & P). subst m'. cbn in R, L.
          assert (RM : reach nodes F m (e_name e)) by (apply reach_mm; auto; apply in_map_iff; exists (e_name m, b); auto).
          split; [|split; [|split]].
          -- apply (same_leads ts ts' _ _ _ SM). apply L. apply good_member; [exact IM|]. eapply has_heads_reach; eauto.
          -- rewrite R. split; [destruct b; discriminate|]. intros ->. destruct (no_self nodes F OR e IE RM).
          -- rewrite R. apply in_mm in P as (m' & IM' & N & dp & LK & ->). rewrite <- (element_once nodes OR m m' IM IM' N) in LK.
             intros D. destruct (Nat.eqb dp 0) eqn:Z; [apply Nat.eqb_eq in Z; rewrite Z in LK|discriminate]. apply look_in in LK. apply (wl_depth nodes f F FL FF) in LK. destruct LK as [[_ I']|]; [exact I'|lia].
          -- rewrite R. intros L1 I1. apply in_mm in P as (m' & IM' & N & dp & LK & ->). rewrite <- (element_once nodes OR m m' IM IM' N) in LK.
             destruct (e_heads m) as [|h [|h2 hs]]; [destruct I1| |cbn in L1; lia]. destruct I1 as [->|[]].
             destruct F as [|F']; [lia|]. cbn in LK. unfold look in LK. cbn in LK. rewrite Nat.eqb_refl in LK. cbn in LK. injection LK as <-. reflexivity.
    - intros e IE A NM. apply (same_leads ts ts' _ _ _ SM). apply leads_base1; [exact IE|].
      pose proof (sh_el _ _ _ (iv_e _ _ _ _ _ _ IV e IE)) as D. fold members in D. rewrite D, A.
      destruct (members (e_name e)) as [|[m b] l] eqn:M; [reflexivity|]. exfalso.
      assert (I : In (m, b) (members (e_name e))) by (rewrite M; left; reflexivity).
      apply in_mm in I as (em & IM & -> & d & L & _). apply (NM (e_name em)). apply REACH; [exact IM|]. exists d. apply look_in. exact L.
    - intros c IC H. destruct (iv_t _ _ _ _ _ _ IV (NType c) IC) as [WV W]. fold derivations in W.
      assert (D : isdyn dynamic c = true) by (unfold isdyn; destruct H as [-> | ->]; [reflexivity|apply orb_true_r]). rewrite D in W, WV.
      assert (KI : In (KType, c_name c) keys) by (apply KEYS; congruence).
      destruct (DY _ _ _ _ KI W) as (ds' & W' & F2).
      assert (CX : forall p, In p (own c ++ map (dent nodes dynamic) (derivations (c_name c))) -> exists b, ts (d_type (snd p)) = Some (VComplex b)).
      { intros p P. apply in_app_iff in P as [P|P].
        - unfold own in P. destruct (c_abstract c); [destruct P|]. destruct P as [<-|[]]. cbn. eauto.
        - apply in_map_iff in P as ([j b] & <- & P). cbn. apply (variant_complex j b). right. exists (c_name c). exact P. }
      assert (ds' = own c ++ map (dent nodes dynamic) (derivations (c_name c))) as ->.
      { clear - F2 CX. induction F2 as [|p q l l' (_ & _ & _ & Q) F2 IH]; [reflexivity|]. f_equal; [|apply IH; intros x X; apply CX; right; exact X].
        destruct (CX p (or_introl eq_refl)) as (b & B). exact (Q b B). }
      set (n := c_name c) in *.
      assert (DIN : forall k, In k (map fst (derivations n)) <-> derives nodes k n).
      { intros k. split.
        - intros I. apply in_map_iff in I as ([j b] & <- & I). apply in_dm in I as (x & o & X & B & d & L & _). cbn.
          apply (above_derives nodes f F OR FL FF x j o n X B). exists d. apply look_in. exact L.
        - intros DR. assert (BX : exists x o, In x nodes /\ based x = Some (k, o)).
          { clear - DR. induction DR as [i b B|i j b _ IH _ _]; [|exact IH]. destruct (base_based _ _ _ B) as (x & X & BX). eauto. }
          destruct BX as (x & o & X & B). apply (above_derives nodes f F OR FL FF x k o n X B) in DR as (d & I). destruct (in_look _ _ _ I) as (d' & L).
          apply in_map_iff. exists (k, Nat.eqb d' 0). split; [reflexivity|]. apply in_dm. exists x, o. split; [exact X|]. split; [exact B|]. eauto. }
      assert (NS : ~ derives nodes (KType, n) n).
      { intros DR. apply (above_derives nodes f F OR FL FF (NType c) (KType, n) (c_base c) n IC eq_refl) in DR as (d & I).
        destruct (c_base c) as [b|] eqn:CB; [|destruct I]. apply in_split in IC as (pre & post & Q).
        destruct (ch_in nodes OR f pre (NType c :: post) b 0 n d Q (or_type _ OR pre c post b Q CB) I) as (y & Y & T).
        exact (not_before_t nodes OR pre (NType c) n post Q eq_refl y Y T). }
      assert (MK : map fst (map (dent nodes dynamic) (derivations n)) = map fst (derivations n)) by (rewrite !map_map; reflexivity).
      exists (Some (KVariant, n)), (own c ++ map (dent nodes dynamic) (derivations n)). split; [exact W'|]. rewrite map_app, MK.
      assert (NDD : NoDup (map fst (derivations n))) by (apply (dm_nodup nodes dynamic f OR n nodes []); rewrite app_nil_r; reflexivity).
      split; [|split].
      + unfold own. destruct (c_abstract c); cbn; [exact NDD|]. constructor; [|exact NDD]. fold n. rewrite DIN. exact NS.
      + intros k. rewrite in_app_iff, DIN. unfold own. fold n. destruct (c_abstract c); cbn; split; intros [I|I]; auto.
        * destruct I.
        * destruct I as [_ I]. discriminate.
        * destruct I as [<-|[]]. auto.
        * destruct I as [-> _]. auto.
      + intros k d I. assert (CXT : exists b, ts' (d_type d) = Some (VComplex b)).
        { destruct (CX _ I) as (b & B). exists b. apply (same_complex ts ts' _ _ SM). exact B. }
        apply in_app_iff in I as [I|I].
        * unfold own in I. fold n in I. destruct (c_abstract c) eqn:A; [destruct I|]. destruct I as [[= <- <-]|[]]. cbn.
          split; [unfold n; rewrite (variant_of_type nodes dynamic OR c IC), D; reflexivity|]. split; [exact CXT|]. split; [tauto|]. split; [discriminate|].
          intros B. destruct NS. apply derives_direct. exact B.
        * apply in_map_iff in I as ([j b] & [= <- <-] & I). cbn. split; [reflexivity|]. split; [exact CXT|].
          assert (DR : derives nodes j n) by (apply DIN; apply in_map_iff; exists (j, b); auto).
          split; [split; [destruct b; discriminate|intros ->; destruct (NS DR)]|].
          apply in_dm in I as (x & o & X & B & dd & L & ->). split.
          -- intros DD. destruct (Nat.eqb dd 0) eqn:Z; [apply Nat.eqb_eq in Z; rewrite Z in L|discriminate]. apply look_in in L. destruct o as [b|]; [|destruct L].
             apply (ch_depth nodes f F FL FF) in L. destruct L as [[_ EB]|]; [|lia]. change (base_of nodes j n). rewrite EB. exact (based_base nodes x j b X B).
          -- intros BO. destruct (base_based _ _ _ BO) as (y & Y & BY). rewrite (based_once nodes OR x y j o (Some n)) in B by assumption. rewrite B in BY. injection BY as ->.
             destruct f as [|f']; [lia|]. unfold look in L. cbn in L. rewrite Nat.eqb_refl in L. cbn in L. injection L as <-. reflexivity.
  Qed.
End Main.

Lemma ends nodes dynamic fuel g : ordered nodes -> 2 * length nodes + 3 <= fuel -> 6 <= g -> exists ts', interprets fuel g nodes dynamic ts'.
Proof.
  intros OR L G. assert (FL : length nodes < S (length nodes)) by lia. assert (FF : 2 * S (length nodes) + 1 <= fuel) by lia.
  destruct (generated nodes dynamic (S (length nodes)) fuel OR FL FF) as (ts & E & IV).
  destruct (keys_exist nodes dynamic _ _ ts IV) as (keys & ND & KEYS). destruct g as [|[|g]]; [lia|lia|].
  destruct (main nodes dynamic (S (length nodes)) fuel OR FL FF ts IV g keys ND KEYS) as (ts' & E' & _).
  exists ts', ts, keys. auto.
Qed.
Lemma results nodes dynamic fuel g ts' : ordered nodes -> 2 * length nodes + 3 <= fuel -> 6 <= g -> interprets fuel g nodes dynamic ts' ->
    (forall e, In (NElement e) nodes -> e_abstract e = true \/ (exists m, member nodes m (e_name e)) -> element_listed nodes ts' e) /\
    (forall e, In (NElement e) nodes -> e_abstract e = false -> (forall m, ~ member nodes m (e_name e)) -> element_plain ts' e) /\
    (forall c, In (NType c) nodes -> c_abstract c = true \/ dynamic (c_name c) = true -> type_listed nodes dynamic ts' c).
Proof.
  intros OR L G (ts & keys & E & ND & KEYS & E'). assert (FL : length nodes < S (length nodes)) by lia. assert (FF : 2 * S (length nodes) + 1 <= fuel) by lia.
  destruct (generated nodes dynamic (S (length nodes)) fuel OR FL FF) as (ts0 & E0 & IV). rewrite E in E0. injection E0 as <-. destruct g as [|[|g]]; [lia|lia|].
  destruct (main nodes dynamic (S (length nodes)) fuel OR FL FF ts IV g keys ND KEYS) as (ts1 & E1 & R). rewrite E' in E1. injection E1 as <-. exact R.
Qed.
Lemma offered_element nodes dynamic fuel g ts' m e : ordered nodes -> 2 * length nodes + 3 <= fuel -> 6 <= g -> interprets fuel g nodes dynamic ts' ->
  In (NElement m) nodes -> In (NElement e) nodes -> member nodes (e_name m) (e_name e) -> offers ts' (KElement, e_name e) (KElement, e_name m).
Proof.
  intros OR L G IN IM IE M. destruct (results _ _ _ _ _ OR L G IN) as (A & _ & _).
  destruct (A e IE) as (t & ds & W & _ & K & _); [right; eauto|].
  assert (I : In (KElement, e_name m) (map fst ds)) by (apply K; exists m; auto).
  apply in_map_iff in I as ([k d] & X & I). cbn in X. subst k. exists t, (e_abstract e), ds, d. auto.
Qed.
Lemma offered_type nodes dynamic fuel g ts' k c : ordered nodes -> 2 * length nodes + 3 <= fuel -> 6 <= g -> interprets fuel g nodes dynamic ts' ->
  In (NType c) nodes -> c_abstract c = true \/ dynamic (c_name c) = true ->
  offers ts' (KType, c_name c) k <-> k = (KType, c_name c) /\ c_abstract c = false \/ derives nodes k (c_name c).
Proof.
  intros OR L G IN IC H. destruct (results _ _ _ _ _ OR L G IN) as (_ & _ & A).
  destruct (A c IC H) as (t & ds & W & _ & K & _). rewrite <- K. split.
  - intros (t' & a & ds' & d & W' & I). rewrite W in W'. injection W' as <- <- <-. apply in_map_iff. exists (k, d). auto.
  - intros I. apply in_map_iff in I as ([k' d] & X & I). cbn in X. subst k'. exists t, (c_abstract c), ds, d. auto.
Qed.
Lemma only_element nodes dynamic fuel g ts' k e : ordered nodes -> 2 * length nodes + 3 <= fuel -> 6 <= g -> interprets fuel g nodes dynamic ts' ->
  In (NElement e) nodes -> offers ts' (KElement, e_name e) k ->
  exists m, In (NElement m) nodes /\ k = (KElement, e_name m) /\ (m = e /\ e_abstract e = false \/ member nodes (e_name m) (e_name e)).
Proof.
  intros OR L G IN IE (t' & a & ds' & d & W' & I). destruct (results _ _ _ _ _ OR L G IN) as (A & B & _).
  assert (H : (e_abstract e = true \/ (exists m, member nodes m (e_name e))) \/ (e_abstract e = false /\ forall m, ~ member nodes m (e_name e))).
  { destruct (e_abstract e); [auto|]. destruct (existsb (fun x => match x with NElement m => existsb (Nat.eqb (e_name e)) (e_heads m) | _ => false end) nodes) eqn:EX.
    - left. right. apply existsb_exists in EX as (x & X & EX). destruct x as [m|c|s]; try discriminate. apply existsb_exists in EX as (h & HH & EX).
      apply Nat.eqb_eq in EX. subst h. exists (e_name m). apply member_direct; assumption.
    - right. split; [reflexivity|]. intros m M.
      assert (LAST : exists x, In (NElement x) nodes /\ In (e_name e) (e_heads x)).
      { remember (e_name e) as h eqn:HE. clear - M. induction M as [x h X H|]; eauto. }
      destruct LAST as (x & X & HH). rewrite <- not_true_iff_false in EX. apply EX. apply existsb_exists. exists (NElement x). split; [exact X|].
      apply existsb_exists. exists (e_name e). split; [exact HH|apply Nat.eqb_refl]. }
  destruct H as [H|[H1 H2]].
  - destruct (A e IE H) as (t & ds & W & _ & K & _). rewrite W in W'. injection W' as <- <- <-. apply K. apply in_map_iff. exists (k, d). auto.
  - pose proof (B e IE H1 H2) as P. inversion P as [? [X|X]|]; subst; try discriminate. congruence.
Qed.

(** A decision procedure for the order. *)
Definition named_element (n : nat) (x : node) : bool := match x with NElement e => Nat.eqb (e_name e) n | _ => false end.
Definition named_type (n : nat) (x : node) : bool := match x with NType c => Nat.eqb (c_name c) n | NSimple m => Nat.eqb m n | _ => false end.
Definition check (done : list node) (x : node) : bool :=
  match x with
  | NElement e => negb (existsb (named_element (e_name e)) done) && forallb (fun h => existsb (named_element h) done) (e_heads e) &&
                  match e_type e with TComplex (Some b) => existsb (named_type b) done | _ => true end
  | NType c => negb (existsb (named_type (c_name c)) done) && match c_base c with Some b => existsb (named_type b) done | None => true end
  | NSimple n => negb (existsb (named_type n) done)
  end%bool.
Fixpoint okb (done todo : list node) : bool := match todo with [] => true | x :: r => (check done x && okb (done ++ [x]) r)%bool end.
Lemma named_element_spec n x : named_element n x = true <-> is_element n x.
Proof. destruct x; cbn; try (split; [discriminate|contradiction]). apply Nat.eqb_eq. Qed.
Lemma named_type_spec n x : named_type n x = true <-> is_type n x.
Proof. destruct x; cbn; try (split; [discriminate|contradiction]); apply Nat.eqb_eq. Qed.
Lemma existsb_el n l : existsb (named_element n) l = true <-> exists x, In x l /\ is_element n x.
Proof. rewrite existsb_exists. split; intros (x & X & H); exists x; split; auto; apply named_element_spec; exact H. Qed.
Lemma existsb_ty n l : existsb (named_type n) l = true <-> exists x, In x l /\ is_type n x.
Proof. rewrite existsb_exists. split; intros (x & X & H); exists x; split; auto; apply named_type_spec; exact H. Qed.
Lemma okb_check : forall todo done, okb done todo = true -> forall pre x post, todo = pre ++ x :: post -> check (done ++ pre) x = true.
Proof.
  induction todo as [|y todo IH]; intros done H pre x post E; [destruct pre; discriminate|]. cbn in H. apply andb_true_iff in H as [H1 H2].
  destruct pre as [|z pre]; cbn in E; injection E as -> ->; [rewrite app_nil_r; exact H1|].
  specialize (IH (done ++ [z]) H2 pre x post eq_refl). rewrite <- app_assoc in IH. exact IH.
Qed.
Lemma okb_ordered nodes : okb [] nodes = true -> ordered nodes.
Proof.
  intros OK. pose proof (okb_check _ _ OK) as CH. cbn [app] in CH.
  constructor.
  - intros pre e post h N I. specialize (CH pre _ post N). cbn in CH. rewrite !andb_true_iff in CH. destruct CH as [[_ CH] _].
    rewrite forallb_forall in CH. apply existsb_el. apply CH. exact I.
  - intros pre e post b N T. specialize (CH pre _ post N). cbn in CH. rewrite T, !andb_true_iff in CH. destruct CH as [_ CH]. apply existsb_ty. exact CH.
  - intros pre c post b N T. specialize (CH pre _ post N). cbn in CH. rewrite T, !andb_true_iff in CH. destruct CH as [_ CH]. apply existsb_ty. exact CH.
  - assert (ONE : forall pre x post n, nodes = pre ++ x :: post -> is_element n x -> forall y, In y pre -> ~ is_element n y).
    { intros pre x post n N T y Y TY. specialize (CH pre _ post N). destruct x as [e|c|s]; try contradiction. cbn in CH, T. subst n.
      rewrite !andb_true_iff in CH. destruct CH as [[CH _] _]. rewrite negb_true_iff, <- not_true_iff_false in CH. apply CH. apply existsb_el. eauto. }
    intros pre x post n N T y Y TY. apply in_app_iff in Y as [Y|Y]; [exact (ONE pre x post n N T y Y TY)|].
    apply in_split in Y as (p1 & p2 & Q). apply (ONE (pre ++ x :: p1) y p2 n) with (y := x); [rewrite N, Q, <- app_assoc; reflexivity|exact TY|apply in_app_iff; cbn; auto|exact T].
  - assert (ONE : forall pre x post n, nodes = pre ++ x :: post -> is_type n x -> forall y, In y pre -> ~ is_type n y).
    { intros pre x post n N T y Y TY. specialize (CH pre _ post N). destruct x as [e|c|s]; try contradiction; cbn in CH, T; subst n;
      rewrite ?andb_true_iff in CH; [destruct CH as [CH _]|]; rewrite negb_true_iff, <- not_true_iff_false in CH; apply CH; apply existsb_ty; eauto. }
    intros pre x post n N T y Y TY. apply in_app_iff in Y as [Y|Y]; [exact (ONE pre x post n N T y Y TY)|].
    apply in_split in Y as (p1 & p2 & Q). apply (ONE (pre ++ x :: p1) y p2 n) with (y := x); [rewrite N, Q, <- app_assoc; reflexivity|exact TY|apply in_app_iff; cbn; auto|exact T].
Qed.
