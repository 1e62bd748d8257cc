From Verif Require Import MetaModel MetaSpec MetaProofs OptModel OptSpec OptProofs UnionModel UnionSpec.

Lemma lookup_set i v ts j : lookup j (set_type i v ts) =
  if tident_eq_dec i j then option_map (fun ty => set_variant ty v) (lookup j ts) else lookup j ts.
Proof.
  unfold set_type. induction ts as [|[k ty] ts IH]; cbn.
  - destruct (tident_eq_dec i j); reflexivity.
  - destruct (tident_eq_dec i k) as [->|D]; cbn.
    + destruct (tident_eq_dec j k) as [->|D']; [destruct (tident_eq_dec k k); [reflexivity|congruence]|exact IH].
    + destruct (tident_eq_dec j k) as [->|D']; [destruct (tident_eq_dec i k); [congruence|reflexivity]|exact IH].
Qed.
Lemma set_keys i v ts : map fst (set_type i v ts) = map fst ts.
Proof. unfold set_type. rewrite map_map. apply map_ext. intros p. destruct (tident_eq_dec i (fst p)); reflexivity. Qed.

Lemma foldM_none {A B} (f : A -> B -> option B) l :
  fold_left (fun acc a => match acc with Some x => f a x | None => None end) l None = None.
Proof. induction l; cbn; auto. Qed.
Lemma foldM_cons {A B} (f : A -> B -> option B) a l b :
  foldM f (a :: l) b = match f a b with Some b' => foldM f l b' | None => None end.
Proof. unfold foldM. cbn. destruct (f a b); [reflexivity|apply foldM_none]. Qed.

(** ** Leaves *)

Lemma step_not_union ts i j ty x : plain_step ts i j -> lookup i ts = Some ty -> m_variant ty = VUnion x -> False.
Proof. intros (t & L & V) L' V'. congruence. Qed.

Lemma leaves_det ts :
  (forall i d l, leaves ts i d l -> forall l', leaves ts i d l' -> l = l') /\
  (forall ms l, leaves_all ts ms l -> forall l', leaves_all ts ms l' -> l = l').
Proof.
  apply leaves_mut.
  - intros i d N l' H. inversion H; subst; try congruence. destruct H0 as (? & ? & _). congruence.
  - intros i d j l S L IH l' H. inversion H; subst.
    + destruct S as (? & ? & _). congruence.
    + rewrite (step_det _ _ _ _ S H0) in IH. apply IH. assumption.
    + exfalso. eapply step_not_union; eassumption.
    + exfalso. eapply H2. exact S.
  - intros i d ty x l Lk V La IH l' H. inversion H; subst.
    + congruence.
    + exfalso. eapply step_not_union; eassumption.
    + assert (x0 = x) by congruence. subst. apply IH. assumption.
    + exfalso. eapply H1. assert (ty0 = ty) by congruence. subst. exact V.
  - intros i d ty Lk NU NS l' H. inversion H; subst.
    + congruence.
    + exfalso. eapply NS. eassumption.
    + exfalso. assert (ty0 = ty) by congruence. subst. eapply NU. eassumption.
    + reflexivity.
  - intros l' H. inversion H. reflexivity.
  - intros t ms l1 l2 L1 IH1 L2 IH2 l' H. inversion H; subst. f_equal; auto.
Qed.

(** The leaves are types that are no unions and no aliases. *)
Lemma leaves_are ts :
  (forall i d l, leaves ts i d l -> Forall (fun t => leaves ts (ut_type t) (ut_display t) [t] /\
     exists ty, lookup (ut_type t) ts = Some ty /\ (forall x, m_variant ty <> VUnion x) /\ forall j, ~ plain_step ts (ut_type t) j) l) /\
  (forall ms l, leaves_all ts ms l -> Forall (fun t => leaves ts (ut_type t) (ut_display t) [t] /\
     exists ty, lookup (ut_type t) ts = Some ty /\ (forall x, m_variant ty <> VUnion x) /\ forall j, ~ plain_step ts (ut_type t) j) l).
Proof.
  apply leaves_mut; intros; auto.
  - constructor; [|constructor]. split; [eapply leaves_other; eassumption|]. cbn. eauto.
  - apply Forall_app. auto.
Qed.

Lemma leaves_all_self ts l : Forall (fun t => leaves ts (ut_type t) (ut_display t) [t]) l -> leaves_all ts l l.
Proof. induction 1 as [|t l H F IH]; [constructor|]. change (t :: l) with ([t] ++ l) at 2. constructor; assumption. Qed.

(** ** The function computes the leaves *)

Definition case_of (ts : types) (i : tident) : Prop :=
  lookup i ts = None \/ (exists j, plain_step ts i j) \/
  (exists ty x, lookup i ts = Some ty /\ m_variant ty = VUnion x) \/
  (exists ty, lookup i ts = Some ty /\ (forall x, m_variant ty <> VUnion x) /\ forall j, ~ plain_step ts i j).

Lemma impl_cases ts i : match get_variant ts i with
  | None => lookup i ts = None
  | Some v => exists ty, lookup i ts = Some ty /\ m_variant ty = v /\
    match v with
    | VUnion x => True
    | VReference r => if ref_simple r then plain_step ts i (rf_type r) else (forall j, ~ plain_step ts i j)
    | _ => forall j, ~ plain_step ts i j
    end
  end.
Proof.
  unfold get_variant. destruct (lookup i ts) as [ty|] eqn:L; cbn; [|reflexivity].
  exists ty. split; [reflexivity|]. split; [reflexivity|].
  assert (N : plain_ref (m_variant ty) = None -> forall j, ~ plain_step ts i j).
  { intros P j S. apply step_iff in S. destruct S as (t & Lt & Pt). congruence. }
  destruct (m_variant ty) as [x|x|x|x|x|x|x|x|x|x|x] eqn:V; try (apply N; reflexivity); try exact I.
  destruct (ref_simple x) eqn:R; [|apply N; cbn; rewrite R; reflexivity].
  apply step_iff. exists ty. split; [exact L|]. rewrite V. cbn. rewrite R. reflexivity.
Qed.

Lemma sfu_other ts i : (forall ty x, lookup i ts = Some ty -> m_variant ty <> VUnion x) -> (forall j, ~ plain_step ts i j) ->
  ~ stands_for_union ts i.
Proof.
  intros U N (j & ty & x & L & Lj & V). inversion L as [|? b ? S R]; subst; [eapply U; eassumption|eapply N; exact S].
Qed.
Lemma sfu_step ts i j : plain_step ts i j -> stands_for_union ts i <-> stands_for_union ts j.
Proof.
  intros S. split; intros (k & ty & x & L & Lk & V).
  - inversion L as [|? b ? S' R]; subst; [exfalso; eapply step_not_union; eassumption|].
    rewrite (step_det _ _ _ _ S S'). exists k, ty, x. auto.
  - exists k, ty, x. split; [econstructor; eassumption|auto].
Qed.

Lemma flatten_sound fuel : forall ts i d c acc c' acc', flatten_impl fuel ts i d (c, acc) = Some (c', acc') ->
  exists l, leaves ts i d l /\ acc' = acc ++ l /\ c <= c' /\ (c' = c <-> ~ stands_for_union ts i) /\
    (forall ty x, lookup i ts = Some ty -> m_variant ty = VUnion x ->
       (c' = S c <-> forall t, In t (un_types x) -> ~ stands_for_union ts (ut_type t))).
Proof.
  induction fuel as [|fuel IH]; intros ts i d c acc c' acc' H; [discriminate|]. cbn in H.
  pose proof (impl_cases ts i) as C. destruct (get_variant ts i) as [v|].
  2:{ injection H as <- <-. exists []. rewrite app_nil_r. split; [apply leaves_missing, C|]. split; [reflexivity|]. split; [lia|].
      split; [|congruence]. split; [|reflexivity]. intros _. apply sfu_other; [congruence|].
      intros j (t & L & _). congruence. }
  destruct C as (ty & L & V & C).
  assert (Other : (forall x, v <> VUnion x) -> (forall j, ~ plain_step ts i j) ->
    exists l, leaves ts i d l /\ acc ++ [UType i d] = acc ++ l /\ c <= c /\ (c = c <-> ~ stands_for_union ts i) /\
    (forall ty x, lookup i ts = Some ty -> m_variant ty = VUnion x ->
       (c = S c <-> forall t, In t (un_types x) -> ~ stands_for_union ts (ut_type t)))).
  { intros NU NS. exists [UType i d]. split; [eapply leaves_other; [exact L|rewrite V; exact NU|exact NS]|].
    split; [reflexivity|]. split; [lia|]. split; [|intros t x Lt Vt; exfalso; apply (NU x); congruence].
    split; [|reflexivity]. intros _. apply sfu_other; [|exact NS]. intros t x Lt Vt. apply (NU x). congruence. }
  destruct v as [x|x|x|x|x|x|x|x|x|x|x]; try (injection H as <- <-; apply Other; [discriminate|exact C]).
  2:{ destruct (ref_simple x) eqn:R; [|injection H as <- <-; apply Other; [discriminate|exact C]].
      destruct (IH _ _ _ _ _ _ _ H) as (l & Ll & E & Le & Ci & _). exists l.
      split; [eapply leaves_alias; eassumption|]. split; [exact E|]. split; [exact Le|].
      split; [rewrite (sfu_step _ _ _ C); exact Ci|]. intros t y Lt Vt. congruence. }
  cbn [fst snd] in H.
  assert (G : forall ms c acc c' acc',
    foldM (fun t n => flatten_impl fuel ts (ut_type t) (ut_display t) n) ms (c, acc) = Some (c', acc') ->
    exists l, leaves_all ts ms l /\ acc' = acc ++ l /\ c <= c' /\
      (c' = c <-> forall t, In t ms -> ~ stands_for_union ts (ut_type t))).
  { clear -IH. induction ms as [|t ms IHm]; intros c acc c' acc' H.
    - unfold foldM in H. cbn in H. injection H as <- <-. exists []. rewrite app_nil_r. split; [constructor|]. split; [reflexivity|].
      split; [lia|]. split; [intros _ t []|reflexivity].
    - rewrite foldM_cons in H. destruct (flatten_impl fuel ts (ut_type t) (ut_display t) (c, acc)) as [[c1 a1]|] eqn:E; [|discriminate].
      destruct (IH _ _ _ _ _ _ _ E) as (l1 & L1 & E1 & Le1 & C1 & _).
      destruct (IHm _ _ _ _ H) as (l2 & L2 & E2 & Le2 & C2).
      exists (l1 ++ l2). split; [constructor; assumption|]. split; [rewrite E2, E1, app_assoc; reflexivity|].
      split; [lia|]. split.
      + intros X t' [<-|I]; [apply C1; lia|]. apply C2; [lia|exact I].
      + intros X. assert (c1 = c) by (apply C1, X; left; reflexivity).
        assert (c' = c1) by (apply C2; intros t' I; apply X; right; exact I). lia. }
  destruct (G _ _ _ _ _ H) as (l & Ll & E & Le & Ci). exists l.
  split; [eapply leaves_union; eassumption|]. split; [exact E|]. split; [lia|]. split.
  - split; [lia|]. intros N. exfalso. apply N. exists i, ty, x. split; [constructor|auto].
  - intros t y Lt Vt. assert (y = x) by congruence. subst y. exact Ci.
Qed.

Lemma flatten_complete ts :
  (forall i d l, leaves ts i d l -> exists f0, forall fuel, f0 <= fuel -> forall n, flatten_impl fuel ts i d n <> None) /\
  (forall ms l, leaves_all ts ms l -> exists f0, forall fuel, f0 <= fuel -> forall n,
     foldM (fun t n => flatten_impl fuel ts (ut_type t) (ut_display t) n) ms n <> None).
Proof.
  apply leaves_mut.
  - intros i d N. exists 1. intros [|fuel] F n; [lia|]. cbn. unfold get_variant. rewrite N. discriminate.
  - intros i d j l St L (f0 & IH). exists (S f0). intros [|fuel] F n; [lia|]. cbn. destruct St as (ty & Lk & V).
    unfold get_variant. rewrite Lk. cbn. rewrite V. cbn. apply IH. lia.
  - intros i d ty x l Lk V La (f0 & IH). exists (S f0). intros [|fuel] F n; [lia|]. cbn. unfold get_variant.
    rewrite Lk. cbn. rewrite V. apply IH. lia.
  - intros i d ty Lk NU NS. exists 1. intros [|fuel] F n; [lia|]. cbn.
    pose proof (impl_cases ts i) as C. destruct (get_variant ts i) as [v|]; [|discriminate].
    destruct C as (ty' & L' & V & C). destruct v as [x|x|x|x|x|x|x|x|x|x|x]; try discriminate.
    + exfalso. eapply NU. assert (ty' = ty) by congruence. subst. exact V.
    + destruct (ref_simple x); [exfalso; eapply NS; exact C|discriminate].
  - exists 0. intros fuel _ n. discriminate.
  - intros t ms l1 l2 L1 (f1 & IH1) L2 (f2 & IH2). exists (f1 + f2). intros fuel F n. rewrite foldM_cons.
    destruct (flatten_impl fuel ts (ut_type t) (ut_display t) n) as [n'|] eqn:E; [apply IH2; lia|].
    exfalso. apply (IH1 fuel ltac:(lia) n), E.
Qed.

(** ** Flattening one union *)

Section One.
  Variables (ts : types) (i : tident) (ty : mtype) (x : union_meta) (l : list union_type).
  Hypothesis Li : lookup i ts = Some ty.
  Hypothesis Vi : m_variant ty = VUnion x.
  Variable cons : constrains.
  Let ts' := set_type i (VUnion (UnionMeta (un_base x) l cons)) ts.

  Lemma one_lookup j : lookup j ts' = if tident_eq_dec i j then Some (set_variant ty (VUnion (UnionMeta (un_base x) l cons))) else lookup j ts.
  Proof. unfold ts'. rewrite lookup_set. destruct (tident_eq_dec i j) as [<-|]; [rewrite Li|]; reflexivity. Qed.
  Lemma one_step a b : plain_step ts' a b <-> plain_step ts a b.
  Proof.
    unfold plain_step. rewrite one_lookup. destruct (tident_eq_dec i a) as [<-|]; [|tauto].
    split; intros (t & L & V); [injection L as <-; discriminate V|congruence].
  Qed.
  Lemma one_leads a b : leads ts' a b <-> leads ts a b.
  Proof. split; (induction 1; [constructor|econstructor; [apply one_step; eassumption|assumption]]). Qed.
  Lemma one_sfu a : stands_for_union ts' a <-> stands_for_union ts a.
  Proof.
    unfold stands_for_union. split; intros (j & t & y & L & Lj & V); apply one_leads in L.
    - rewrite one_lookup in Lj. destruct (tident_eq_dec i j) as [<-|]; [exists i, ty, x|exists j, t, y]; auto.
    - exists j. rewrite one_lookup. destruct (tident_eq_dec i j) as [<-|]; [do 2 eexists; split; [exact L|split; reflexivity]|eauto].
  Qed.

  Hypothesis Lv : leaves ts i None l.

  Lemma any_display d d' m : leaves ts i d m -> leaves ts i d' m.
  Proof.
    intros H. inversion H as [? ? N|? ? j ? St|? ? t y ? L V La|? ? t L NU]; subst.
    - congruence.
    - exfalso. exact (step_not_union _ _ _ _ _ St Li Vi).
    - eapply leaves_union; eassumption.
    - exfalso. apply (NU x). congruence.
  Qed.

  Lemma leaf_kept t : In t l -> leaves ts' (ut_type t) (ut_display t) [t] /\ ut_type t <> i /\ ~ stands_for_union ts' (ut_type t).
  Proof.
    intros I. destruct (leaves_are ts) as [A _]. specialize (A _ _ _ Lv). rewrite Forall_forall in A.
    destruct (A _ I) as (_ & tt & Lt & NU & NS).
    assert (D : ut_type t <> i) by (intros E; rewrite E in Lt; assert (tt = ty) by congruence; subst; eapply NU; exact Vi).
    assert (Lt' : lookup (ut_type t) ts' = Some tt) by (rewrite one_lookup; destruct (tident_eq_dec i (ut_type t)); congruence).
    assert (NS' : forall j, ~ plain_step ts' (ut_type t) j) by (intros j; rewrite one_step; apply NS).
    split; [|split; [exact D|]].
    - destruct t as [tn td]. eapply leaves_other; eassumption.
    - apply sfu_other; [|exact NS']. intros t' y L' V'. eapply NU. rewrite Lt' in L'. injection L' as ->. exact V'.
  Qed.

  Lemma one_self d : leaves ts' i d l.
  Proof.
    eapply leaves_union; [rewrite one_lookup; destruct (tident_eq_dec i i); [reflexivity|congruence]|reflexivity|].
    cbn. apply leaves_all_self. apply Forall_forall. intros t I. apply leaf_kept, I.
  Qed.

  Lemma one_forward : (forall j d m, leaves ts j d m -> leaves ts' j d m) /\
    (forall ms m, leaves_all ts ms m -> leaves_all ts' ms m).
  Proof.
    apply leaves_mut.
    - intros j d N. apply leaves_missing. rewrite one_lookup. destruct (tident_eq_dec i j); congruence.
    - intros j d k m S L IH. eapply leaves_alias; [apply one_step; exact S|exact IH].
    - intros j d t y m Lj V La IH. destruct (tident_eq_dec i j) as [<-|D].
      + assert (m = l).
        { destruct (leaves_det ts) as [Dt _]. apply (Dt i None); [|exact Lv]. apply (any_display d None). eapply leaves_union; eassumption. }
        subst m. apply one_self.
      + eapply leaves_union; [rewrite one_lookup; destruct (tident_eq_dec i j); [congruence|exact Lj]|exact V|exact IH].
    - intros j d t Lj NU NS. eapply leaves_other.
      + rewrite one_lookup. destruct (tident_eq_dec i j) as [<-|]; [|exact Lj]. exfalso. assert (t = ty) by congruence. subst. eapply NU; exact Vi.
      + exact NU.
      + intros k. rewrite one_step. apply NS.
    - constructor.
    - intros. constructor; assumption.
  Qed.

  Lemma one_backward : (forall j d m, leaves ts' j d m -> leaves ts j d m) /\
    (forall ms m, leaves_all ts' ms m -> leaves_all ts ms m).
  Proof.
    apply leaves_mut.
    - intros j d N. apply leaves_missing. rewrite one_lookup in N. destruct (tident_eq_dec i j); congruence.
    - intros j d k m S L IH. eapply leaves_alias; [apply one_step; exact S|exact IH].
    - intros j d t y m Lj V La IH. destruct (tident_eq_dec i j) as [<-|D].
      + assert (m = l).
        { destruct (leaves_det ts') as [Dt _]. apply (Dt i d); [eapply leaves_union; eassumption|apply one_self]. }
        subst m. eapply any_display. exact Lv.
      + rewrite one_lookup in Lj. destruct (tident_eq_dec i j); [congruence|]. eapply leaves_union; eassumption.
    - intros j d t Lj NU NS. rewrite one_lookup in Lj. destruct (tident_eq_dec i j) as [<-|D].
      + exfalso. injection Lj as <-. eapply NU; reflexivity.
      + eapply leaves_other; [exact Lj|exact NU|]. intros k. rewrite <- one_step. apply NS.
    - constructor.
    - intros. constructor; assumption.
  Qed.
End One.

(** ** Flattening all unions *)

(** The relation between the types before and after, once the unions [done] are flat. *)
Record flat_rel (ts ts' : types) (done : list tident) : Prop := {
  fr_keys : map fst ts' = map fst ts;
  fr_step : forall a b, plain_step ts' a b <-> plain_step ts a b;
  fr_leaves : forall j d m, leaves ts' j d m <-> leaves ts j d m;
  fr_sfu : forall a, stands_for_union ts' a <-> stands_for_union ts a;
  fr_types : forall i ty, lookup i ts = Some ty ->
    match m_variant ty with
    | VUnion x => exists x', lookup i ts' = Some (set_variant ty (VUnion x')) /\ un_base x' = un_base x /\
        (x' = x \/ leaves ts i None (un_types x')) /\
        (In i done -> forall t, In t (un_types x') -> ~ stands_for_union ts' (ut_type t))
    | _ => lookup i ts' = Some ty
    end }.

Lemma flat_refl ts : flat_rel ts ts [].
Proof.
  split; try reflexivity; try (intros; tauto).
  intros i ty L. destruct ty as [v fo sc di re doc]. cbn. destruct v as [x|x|x|x|x|x|x|x|x|x|x]; auto.
  exists x. split; [exact L|]. split; [reflexivity|]. split; [left; reflexivity|]. intros [].
Qed.

Lemma flat_step fuel ts o done i ty x r : flat_rel ts (o_types o) done -> lookup i ts = Some ty -> m_variant ty = VUnion x ->
  flatten_union fuel o i = Some r -> exists o', r = Ok o' /\ flat_rel ts (o_types o') (done ++ [i]) /\
    o_typedefs o' = o_typedefs o /\ o_bases o' = o_bases o.
Proof.
  intros R L V F. pose proof (fr_types _ _ _ R i ty L) as T. rewrite V in T. destruct T as (x' & L' & B & O & Dn).
  unfold flatten_union, get_variant in F. rewrite L' in F. cbn in F.
  destruct (flatten_impl fuel (o_types o) i None (0, [])) as [[c l]|] eqn:E; [|discriminate].
  injection F as <-. destruct (flatten_sound _ _ _ _ _ _ _ _ E) as (l0 & Lv & El & _ & C0 & C1). cbn in El. subst l0.
  specialize (C1 _ _ L' eq_refl).
  assert (Hc : 1 <= c).
  { destruct c; [|lia]. exfalso. destruct C0 as [C0 _]. apply C0; [reflexivity|]. exists i, (set_variant ty (VUnion x')), x'.
    split; [constructor|]. split; [exact L'|reflexivity]. }
  destruct (Nat.ltb_spec 1 c) as [G|G].
  - eexists. split; [reflexivity|]. cbn [with_types o_types o_typedefs o_bases]. split; [|auto].
    pose proof (one_lookup _ _ _ x' l L' no_constrains) as OL. cbn in OL.
    pose proof (one_step _ _ _ x' l L' eq_refl no_constrains) as OS.
    pose proof (one_sfu _ _ _ x' l L' eq_refl no_constrains) as OU.
    pose proof (one_forward _ _ _ x' l L' eq_refl no_constrains Lv) as [OF _].
    pose proof (one_backward _ _ _ x' l L' eq_refl no_constrains Lv) as [OB _].
    pose proof (leaf_kept _ _ _ x' l L' eq_refl no_constrains Lv) as LK.
    set (ts2 := set_type i (VUnion (UnionMeta (un_base x') l no_constrains)) (o_types o)) in *.
    split.
    + unfold ts2. rewrite set_keys. apply (fr_keys _ _ _ R).
    + intros a b. rewrite OS. apply (fr_step _ _ _ R).
    + intros j d m. rewrite <- (fr_leaves _ _ _ R). split; [apply OB|apply OF].
    + intros a. rewrite OU. apply (fr_sfu _ _ _ R).
    + intros j tj Lj. rewrite OL. destruct (tident_eq_dec i j) as [<-|D].
      * assert (tj = ty) by congruence. subst tj. rewrite V. eexists. split; [reflexivity|]. cbn. split; [exact B|].
        split; [right; apply (fr_leaves _ _ _ R), Lv|]. intros _ t It. apply (LK t It).
      * pose proof (fr_types _ _ _ R j tj Lj) as Tj. destruct (m_variant tj); try exact Tj.
        destruct Tj as (x2 & A1 & A2 & A3 & A4). exists x2. split; [exact A1|]. split; [exact A2|]. split; [exact A3|].
        intros I t It. rewrite OU. apply A4; [|exact It]. apply in_app_iff in I. destruct I as [I|[I|[]]]; [exact I|congruence].
  - assert (c = 1) by lia. subst c. exists o. split; [reflexivity|]. split; [|auto].
    destruct C1 as [C1 _]. specialize (C1 eq_refl). destruct R as [R1 R2 R3 R4 R5]. split; auto.
    intros j tj Lj. specialize (R5 j tj Lj). destruct (m_variant tj) eqn:Vj; try exact R5.
    destruct R5 as (x2 & A1 & A2 & A3 & A4). exists x2. split; [exact A1|]. split; [exact A2|]. split; [exact A3|].
    intros I t It. apply in_app_iff in I. destruct I as [I|[<-|[]]]; [apply A4; assumption|].
    assert (tj = ty) by congruence. subst tj. assert (x2 = x') by (unfold set_variant in *; congruence). subst x2. apply C1, It.
Qed.

Lemma union_idents_in ts i : In i (union_idents ts) <-> exists ty x, In (i, ty) ts /\ m_variant ty = VUnion x.
Proof.
  unfold union_idents. rewrite in_map_iff. split.
  - intros ([j ty] & <- & H). apply filter_In in H. destruct H as [H E]. cbn in *. destruct (m_variant ty) eqn:V; try discriminate. eauto.
  - intros (ty & x & I & V). exists (i, ty). split; [reflexivity|]. apply filter_In. split; [exact I|]. cbn. rewrite V. reflexivity.
Qed.

Lemma on_unions_step {Rel : optimizer -> list tident -> Prop} pass o : NoDup (map fst (o_types o)) ->
  (forall o1 done i ty x r, Rel o1 done -> ~ In i done -> lookup i (o_types o) = Some ty -> m_variant ty = VUnion x ->
     pass o1 i = Some r -> exists o', r = Ok o' /\ Rel o' (done ++ [i])) ->
  Rel o [] -> forall r, on_unions pass o = Some r -> exists o', r = Ok o' /\ Rel o' (union_idents (o_types o)).
Proof.
  intros ND ST R0. unfold on_unions.
  assert (NDu : NoDup (union_idents (o_types o))).
  { unfold union_idents. generalize ND. generalize (o_types o) as l. clear. induction l as [|p l IH]; cbn; [constructor|].
    intros N. inversion N as [|? ? A B]; subst. destruct (is_union _); cbn; [|auto]. constructor; [|auto].
    intros H. apply A. apply in_map_iff in H. destruct H as (q & E & Q). apply filter_In in Q. apply in_map_iff. exists q. tauto. }
  assert (G : forall l done, incl l (union_idents (o_types o)) -> NoDup (done ++ l) -> forall o1 r, Rel o1 done ->
    fold_left (fun acc i => match acc with Some (Ok o) => match pass o i with Some (Err _) => Some Panic | r => r end | r => r end)
      l (Some (Ok o1)) = Some r -> exists o', r = Ok o' /\ Rel o' (done ++ l)).
  { induction l as [|i l IH]; intros done I N o1 r R F; cbn in F.
    - injection F as <-. exists o1. rewrite app_nil_r. auto.
    - assert (Ii : In i (union_idents (o_types o))) by (apply I; left; reflexivity).
      apply union_idents_in in Ii. destruct Ii as (ty & x & Ii & V). apply (lookup_unique _ _ _ ND) in Ii.
      destruct (pass o1 i) as [r1|] eqn:P.
      + destruct (ST o1 done i ty x r1 R) as (o2 & -> & R2); try assumption.
        { intros H. apply NoDup_remove_2 in N. apply N, in_app_iff. left. exact H. }
        destruct (IH (done ++ [i])) with (o1 := o2) (r := r) as (o' & E & R').
        * intros z Hz. apply I. right. exact Hz.
        * rewrite <- app_assoc. exact N.
        * exact R2.
        * exact F.
        * exists o'. split; [exact E|]. rewrite <- app_assoc in R'. exact R'.
      + exfalso. clear -F. induction l; cbn in F; [discriminate|auto]. }
  intros r F. exact (G (union_idents (o_types o)) [] (incl_refl _) NDu o r R0 F).
Qed.

Lemma flatten_unions_spec fuel o r : NoDup (map fst (o_types o)) -> flatten_unions fuel o = Some r ->
  exists o', r = Ok o' /\ flat_rel (o_types o) (o_types o') (union_idents (o_types o)) /\ o_typedefs o' = o_typedefs o /\ o_bases o' = o_bases o.
Proof.
  intros ND F.
  apply (@on_unions_step (fun o1 done => flat_rel (o_types o) (o_types o1) done /\ o_typedefs o1 = o_typedefs o /\ o_bases o1 = o_bases o)
    (flatten_union fuel) o ND) in F; [exact F| |].
  - intros o1 done i ty x r0 (R & T & B) _ L V P. destruct (flat_step _ _ _ _ _ _ _ _ R L V P) as (o' & E & R' & T' & B').
    exists o'. split; [exact E|]. split; [exact R'|]. split; congruence.
  - split; [apply flat_refl|]. auto.
Qed.

(** ** Enough fuel *)

Lemma foldM_mono {A B} (f g : A -> B -> option B) l : (forall a b r, f a b = Some r -> g a b = Some r) ->
  forall b r, foldM f l b = Some r -> foldM g l b = Some r.
Proof.
  intros H. induction l as [|a l IH]; intros b r; [auto|]. rewrite !foldM_cons.
  destruct (f a b) as [b'|] eqn:E; [|discriminate]. rewrite (H _ _ _ E). apply IH.
Qed.
Lemma flatten_mono fuel : forall fuel' ts i d n r, flatten_impl fuel ts i d n = Some r -> fuel <= fuel' ->
  flatten_impl fuel' ts i d n = Some r.
Proof.
  induction fuel as [|fuel IH]; intros [|fuel'] ts i d n r H F; try discriminate; try lia. cbn in *.
  destruct (get_variant ts i) as [v|]; [|exact H]. destruct v as [x|x|x|x|x|x|x|x|x|x|x]; try exact H.
  - eapply foldM_mono; [|exact H]. intros a b r' E. eapply IH; [exact E|lia].
  - destruct (ref_simple x); [|exact H]. eapply IH; [exact H|lia].
Qed.

Lemma flat_finite ts ts' done : flat_rel ts ts' done -> finite_unions ts -> finite_unions ts'.
Proof.
  intros R H i ty x L V.
  destruct (lookup i ts) as [t|] eqn:Lt.
  - pose proof (fr_types _ _ _ R i t Lt) as T. destruct (m_variant t) as [y|y|y|y|y|y|y|y|y|y|y] eqn:Vt;
      try (rewrite L in T; injection T as ->; congruence).
    destruct (H _ _ _ Lt Vt) as (l & Ll). exists l. apply (fr_leaves _ _ _ R), Ll.
  - exfalso. apply lookup_none in Lt. apply Lt. rewrite <- (fr_keys _ _ _ R). eapply lookup_key; exact L.
Qed.

Lemma flatten_unions_ends o : NoDup (map fst (o_types o)) -> finite_unions (o_types o) ->
  exists f0, forall fuel, f0 <= fuel -> exists o', flatten_unions fuel o = Some (Ok o').
Proof.
  intros ND FU. unfold flatten_unions, on_unions.
  assert (G : forall l, (forall i, In i l -> exists ty x, lookup i (o_types o) = Some ty /\ m_variant ty = VUnion x) ->
    forall o1 done, flat_rel (o_types o) (o_types o1) done ->
    exists f0, forall fuel, f0 <= fuel -> exists o',
      fold_left (fun acc i => match acc with Some (Ok o) => match flatten_union fuel o i with Some (Err _) => Some Panic | r => r end | r => r end)
        l (Some (Ok o1)) = Some (Ok o')).
  { induction l as [|i l IH]; intros U o1 done R; [exists 0; intros fuel _; exists o1; reflexivity|].
    destruct (U i) as (ty & x & L & V); [left; reflexivity|].
    pose proof (fr_types _ _ _ R i ty L) as T. rewrite V in T. destruct T as (x' & L' & _).
    destruct (flat_finite _ _ _ R FU i _ x' L' eq_refl) as (lv & Lv).
    destruct (flatten_complete (o_types o1)) as [C _]. destruct (C _ _ _ Lv) as (f1 & C1).
    destruct (flatten_impl f1 (o_types o1) i None (0, [])) as [[c m]|] eqn:E; [|exfalso; exact (C1 f1 (le_n _) _ E)].
    assert (P : exists o2, forall fuel, f1 <= fuel -> flatten_union fuel o1 i = Some (Ok o2)).
    { eexists. intros fuel F. unfold flatten_union, get_variant. rewrite L'. cbn.
      rewrite (flatten_mono _ _ _ _ _ _ _ E F). reflexivity. }
    destruct P as (o2 & P).
    destruct (flat_step _ _ _ _ _ _ _ _ R L V (P f1 (le_n _))) as (o2' & E2 & R2 & _). injection E2 as <-.
    destruct (IH (fun j Hj => U j (or_intror Hj)) o2 _ R2) as (f2 & IH2).
    exists (f1 + f2). intros fuel F. cbn. rewrite P by lia. apply IH2. lia. }
  apply (G _) with (done := []); [|apply flat_refl].
  intros i I. apply union_idents_in in I. destruct I as (ty & x & I & V). exists ty, x. split; [apply lookup_unique; assumption|exact V].
Qed.

(** ** Merging enumerations *)

Definition mergeL (ts : types) (l : list union_type) (next : option merged) : option merged :=
  fold_left (fun n t => Some
    (match get_variant ts (ut_type t) with
     | Some (VEnumeration x) => merge_enum x n
     | _ => merge_other (ut_type t) (ut_display t) n
     end)) l next.

Lemma merge_sound fuel : forall ts i d next r, merge_impl fuel ts i d next = Some r ->
  exists l, leaves ts i d l /\ r = mergeL ts l next.
Proof.
  induction fuel as [|fuel IH]; intros ts i d next r H; [discriminate|]. cbn in H.
  pose proof (impl_cases ts i) as C. destruct (get_variant ts i) as [v|] eqn:GV.
  2:{ injection H as <-. exists []. split; [apply leaves_missing, C|reflexivity]. }
  destruct C as (ty & L & V & C).
  assert (Other : (forall x, v <> VUnion x) -> (forall j, ~ plain_step ts i j) -> leaves ts i d [UType i d]).
  { intros NU NS. eapply leaves_other; [exact L|rewrite V; exact NU|exact NS]. }
  assert (G : forall ms next r,
    foldM (fun t n => merge_impl fuel ts (ut_type t) (ut_display t) n) ms next = Some r ->
    exists l, leaves_all ts ms l /\ r = mergeL ts l next).
  { clear -IH. induction ms as [|t ms IHm]; intros next r H.
    - unfold foldM in H. cbn in H. injection H as <-. exists []. split; [constructor|reflexivity].
    - rewrite foldM_cons in H. destruct (merge_impl fuel ts (ut_type t) (ut_display t) next) as [n1|] eqn:E; [|discriminate].
      destruct (IH _ _ _ _ _ E) as (l1 & L1 & E1). destruct (IHm _ _ H) as (l2 & L2 & E2).
      exists (l1 ++ l2). split; [constructor; assumption|]. rewrite E2, E1. unfold mergeL. rewrite fold_left_app. reflexivity. }
  destruct v as [x|x|x|x|x|x|x|x|x|x|x];
    try (injection H as <-; exists [UType i d]; split; [apply Other; [discriminate|exact C]|unfold mergeL; cbn; rewrite GV; reflexivity]).
  - destruct (G _ _ _ H) as (l & Ll & E). exists l. split; [eapply leaves_union; eassumption|exact E].
  - destruct (ref_simple x) eqn:R.
    + destruct (IH _ _ _ _ _ H) as (l & Ll & E). exists l. split; [eapply leaves_alias; eassumption|exact E].
    + injection H as <-. exists [UType i d]. split; [apply Other; [discriminate|exact C]|unfold mergeL; cbn; rewrite GV; reflexivity].
Qed.

Definition adds (cs : list (pident * option tident * option string)) (acc : list enum_variant) : list enum_variant :=
  fold_left (fun acc c => add_variant (fst (fst c)) (snd (fst c)) (snd c) acc) cs acc.
Lemma adds_app a b acc : adds (a ++ b) acc = adds b (adds a acc).
Proof. apply fold_left_app. Qed.

Lemma merge_start_enum x n : merge_start (Some (merge_enum x n)) =
  adds (map (fun v => (ev_ident v, ev_type v, ev_display v)) (en_variants x)) (merge_start n).
Proof.
  cbn. unfold adds. generalize (merge_start n) as acc. induction (en_variants x) as [|v l IH]; intros acc; cbn; [reflexivity|apply IH].
Qed.
Lemma merge_start_other i d n : merge_start (Some (merge_other i d n)) = adds [(ti_property i, Some i, d)] (merge_start n).
Proof.
  destruct n as [[l|l]|]; cbn; try reflexivity. rewrite fold_left_app. reflexivity.
Qed.

Lemma mergeL_start ts l : forall next, merge_start (mergeL ts l next) = adds (flat_map (contributions ts) l) (merge_start next).
Proof.
  induction l as [|t l IH]; intros next; cbn; [reflexivity|]. unfold mergeL in *. cbn. rewrite IH, adds_app. f_equal.
  unfold contributions. destruct (get_variant ts (ut_type t)) as [v|]; [destruct v|]; try apply merge_start_other. apply merge_start_enum.
Qed.

Lemma mergeL_enum ts l : forall vs, exists vs', mergeL ts l (Some (MEnum vs)) = Some (MEnum vs').
Proof.
  induction l as [|t l IH]; intros vs; cbn; [eauto|]. unfold mergeL in *. cbn.
  destruct (get_variant ts (ut_type t)) as [v|]; [destruct v|]; cbn; apply IH.
Qed.

Lemma mergeL_cases ts l : forall us, Forall (fun t => ~ is_enum ts t) us ->
  (Exists (is_enum ts) l /\ exists vs, mergeL ts l (Some (MUnion us)) = Some (MEnum vs)) \/
  (Forall (fun t => ~ is_enum ts t) l /\ mergeL ts l (Some (MUnion us)) = Some (MUnion (us ++ l))).
Proof.
  induction l as [|t l IH]; intros us Hu; [right; split; [constructor|cbn; rewrite app_nil_r; reflexivity]|].
  unfold mergeL. cbn [fold_left]. fold (mergeL ts l).
  assert (D : (exists x, get_variant ts (ut_type t) = Some (VEnumeration x)) \/
    (~ is_enum ts t /\ match get_variant ts (ut_type t) with Some (VEnumeration x) => merge_enum x (Some (MUnion us))
       | _ => merge_other (ut_type t) (ut_display t) (Some (MUnion us)) end = MUnion (us ++ [t]))).
  { unfold is_enum. destruct t as [tn td]. cbn. destruct (get_variant ts tn) as [v|]; [destruct v|]; cbn; eauto;
      right; (split; [intros (y & E); discriminate E|reflexivity]). }
  destruct D as [(x & E)|[N E]].
  - left. split; [left; exists x; exact E|]. rewrite E. apply mergeL_enum.
  - rewrite E. destruct (IH (us ++ [t])) as [(A & B)|(A & B)].
    + apply Forall_app. auto.
    + left. split; [right; exact A|exact B].
    + right. split; [constructor; assumption|]. rewrite <- app_assoc in B. exact B.
Qed.

Lemma mergeL_none ts l :
  (l = [] /\ mergeL ts l None = None) \/
  (Exists (is_enum ts) l /\ mergeL ts l None = Some (MEnum (adds (flat_map (contributions ts) l) []))) \/
  (l <> [] /\ Forall (fun t => ~ is_enum ts t) l /\ mergeL ts l None = Some (MUnion l)).
Proof.
  destruct l as [|t l]; [left; auto|right].
  assert (E0 : forall l, l <> [] -> mergeL ts l None = mergeL ts l (Some (MUnion []))).
  { intros [|a k] N; [congruence|]. reflexivity. }
  assert (NE : t :: l <> []) by discriminate. pose proof (E0 _ NE) as E. pose proof (mergeL_start ts (t :: l) None) as ST.
  destruct (mergeL_cases ts (t :: l) []) as [(A & vs & B)|(A & B)]; [constructor| |].
  - left. split; [exact A|]. rewrite E, B in *. cbn in ST. rewrite ST. reflexivity.
  - right. split; [exact NE|]. split; [exact A|]. rewrite E. exact B.
Qed.

(** ** Adding variants *)

Lemma add_idents id t d l : forall x, In x (map ev_ident (add_variant id t d l)) <-> x = id \/ In x (map ev_ident l).
Proof.
  unfold add_variant. induction l as [|v l IH]; intros x; cbn; [intuition congruence|].
  destruct (pident_eq_dec (ev_ident v) id) as [<-|D]; cbn; [intuition congruence|]. rewrite IH. intuition congruence.
Qed.
Lemma add_nodup id t d l : NoDup (map ev_ident l) -> NoDup (map ev_ident (add_variant id t d l)).
Proof.
  unfold add_variant. induction l as [|v l IH]; cbn; intros N; [repeat constructor; auto|]. inversion N as [|? ? A B]; subst.
  destruct (pident_eq_dec (ev_ident v) id) as [<-|D]; cbn; [constructor; assumption|].
  constructor; [|apply IH, B]. intros H. apply (add_idents id t d l) in H. destruct H; [congruence|contradiction].
Qed.
Lemma adds_idents cs : forall acc x, In x (map ev_ident (adds cs acc)) <-> In x (map (fun c => fst (fst c)) cs) \/ In x (map ev_ident acc).
Proof.
  induction cs as [|c cs IH]; intros acc x; cbn; [tauto|]. unfold adds in *. cbn. rewrite IH, add_idents. intuition congruence.
Qed.
Lemma adds_nodup cs : forall acc, NoDup (map ev_ident acc) -> NoDup (map ev_ident (adds cs acc)).
Proof. induction cs as [|c cs IH]; intros acc N; cbn; [exact N|]. apply IH, add_nodup, N. Qed.

Lemma add_new id t d l : ~ In id (map ev_ident l) -> add_variant id t d l = l ++ [variant_of (id, t, d)].
Proof.
  unfold add_variant. induction l as [|v l IH]; cbn; intros N; [reflexivity|].
  destruct (pident_eq_dec (ev_ident v) id); [exfalso; auto|]. rewrite IH by auto. reflexivity.
Qed.
Lemma adds_new cs : forall acc, NoDup (map ev_ident acc ++ map (fun c => fst (fst c)) cs) ->
  adds cs acc = acc ++ map variant_of cs.
Proof.
  induction cs as [|[[id t] d] cs IH]; intros acc N; cbn; [rewrite app_nil_r; reflexivity|].
  cbn in N. unfold adds. cbn [fold_left fst snd]. rewrite add_new.
  - fold (adds cs (acc ++ [variant_of (id, t, d)])). rewrite IH.
    + rewrite <- app_assoc. reflexivity.
    + rewrite map_app. cbn. rewrite <- app_assoc. exact N.
  - intros H. apply NoDup_remove_2 in N. apply N, in_app_iff. left. exact H.
Qed.

(** Every variant has the type of one of the contributions with its name. *)
Lemma add_types id t d l v : In v (add_variant id t d l) ->
  (ev_ident v = id /\ ev_type v = t) \/ exists w, In w l /\ ev_ident w = ev_ident v /\ ev_type w = ev_type v.
Proof.
  unfold add_variant. induction l as [|w l IH]; cbn; [intros [<-|[]]; auto|].
  destruct (pident_eq_dec (ev_ident w) id) as [E|D]; cbn.
  - intros [<-|H]; [right; exists w; auto|right; exists v; auto].
  - intros [<-|H]; [right; exists w; auto|]. destruct (IH H) as [A|(u & A & B)]; [auto|right; exists u; auto].
Qed.
Lemma adds_types cs : forall acc v, In v (adds cs acc) ->
  (exists d, In (ev_ident v, ev_type v, d) cs) \/ exists w, In w acc /\ ev_ident w = ev_ident v /\ ev_type w = ev_type v.
Proof.
  induction cs as [|[[id t] d] cs IH]; intros acc v H; [right; exists v; auto|].
  change (adds ((id, t, d) :: cs) acc) with (adds cs (add_variant id t d acc)) in H.
  destruct (IH _ _ H) as [(d' & I)|(w & I & E1 & E2)]; [left; exists d'; right; exact I|].
  destruct (add_types _ _ _ _ _ I) as [[A B]|(u & A & B & C)].
  - left. exists d. left. congruence.
  - right. exists u. repeat split; congruence.
Qed.

(** ** What the types offer *)

Definition leaf_offers (ts : types) (t : union_type) (id : pident) : Prop := In id (map (fun c => fst (fst c)) (contributions ts t)).

Lemma not_enum_contributions ts t : ~ is_enum ts t -> contributions ts t = [(ti_property (ut_type t), Some (ut_type t), ut_display t)].
Proof.
  unfold is_enum, contributions. intros N. destruct (get_variant ts (ut_type t)) as [v|]; [destruct v|]; try reflexivity.
  exfalso. eauto.
Qed.

Lemma offers_leaf ts i d ty : lookup i ts = Some ty -> (forall x, m_variant ty <> VUnion x) -> (forall j, ~ plain_step ts i j) ->
  forall id, offers ts i id <-> leaf_offers ts (UType i d) id.
Proof.
  intros L NU NS id. unfold leaf_offers, contributions, get_variant. cbn. rewrite L. cbn. split.
  - intros H. inversion H; subst.
    + exfalso. eapply NS; eassumption.
    + exfalso. assert (ty0 = ty) by congruence. subst. eapply NU; eassumption.
    + assert (ty0 = ty) by congruence. subst. rewrite H1. rewrite map_map. cbn. apply in_map_iff. exists v. auto.
    + assert (ty0 = ty) by congruence. subst. destruct (m_variant ty) eqn:V; try (left; reflexivity). exfalso. eapply H2. reflexivity.
  - intros H.
    assert (O : (forall x, m_variant ty <> VEnumeration x) -> ti_property i = id -> offers ts i id).
    { intros NE <-. eapply offers_other; eassumption. }
    destruct (m_variant ty) as [x|x|x|x|x|x|x|x|x|x|x] eqn:V; try (destruct H as [H|[]]; apply O; [discriminate|exact H]).
    rewrite map_map in H. cbn in H. apply in_map_iff in H. destruct H as (v & <- & I). eapply offers_literal; eassumption.
Qed.

Lemma offers_leaves ts :
  (forall i d l, leaves ts i d l -> forall id, offers ts i id <-> Exists (fun t => leaf_offers ts t id) l) /\
  (forall ms l, leaves_all ts ms l -> forall id, (exists t, In t ms /\ offers ts (ut_type t) id) <-> Exists (fun t => leaf_offers ts t id) l).
Proof.
  apply leaves_mut.
  - intros i d N id. split; [|intros H; inversion H]. intros H. inversion H; subst; try congruence.
    destruct H0 as (? & ? & _). congruence.
  - intros i d j l S L IH id. rewrite <- IH. split.
    + intros H. inversion H; subst.
      * rewrite (step_det _ _ _ _ S H0). assumption.
      * exfalso. eapply step_not_union; eassumption.
      * exfalso. destruct S as (t & Lt & Vt). congruence.
      * exfalso. eapply H3; exact S.
    + intros H. eapply offers_alias; eassumption.
  - intros i d ty x l L V La IH id. rewrite <- IH. split.
    + intros H. inversion H; subst.
      * exfalso. eapply step_not_union; eassumption.
      * assert (ty0 = ty) by congruence. subst. assert (x0 = x) by congruence. subst. eauto.
      * exfalso. congruence.
      * exfalso. assert (ty0 = ty) by congruence. subst. eapply H1; exact V.
    + intros (t & It & Ot). eapply offers_union; eassumption.
  - intros i d ty L NU NS id. rewrite (offers_leaf ts i d ty L NU NS). split; [intros H; left; exact H|].
    intros H. inversion H as [? ? A|? ? A]; [exact A|inversion A].
  - intros id. split; [intros (t & [] & _)|intros H; inversion H].
  - intros t ms l1 l2 L1 IH1 L2 IH2 id. rewrite Exists_app, <- IH1, <- IH2. split.
    + intros (t' & [<-|I] & O); [left; exact O|right; eauto].
    + intros [O|(t' & I & O)]; [exists t; split; [left; reflexivity|exact O]|exists t'; split; [right; exact I|exact O]].
Qed.

Section Merge.
  Variables (ts : types) (i : tident) (ty : mtype) (x : union_meta) (l : list union_type) (m : merged).
  Hypothesis Li : lookup i ts = Some ty.
  Hypothesis Vi : m_variant ty = VUnion x.
  Hypothesis Lv : leaves ts i None l.
  Hypothesis Mm : mergeL ts l None = Some m.
  Let ts' := set_type i (merged_variant m) ts.

  Lemma m_lookup j : lookup j ts' = if tident_eq_dec i j then Some (set_variant ty (merged_variant m)) else lookup j ts.
  Proof. unfold ts'. rewrite lookup_set. destruct (tident_eq_dec i j) as [<-|]; [rewrite Li|]; reflexivity. Qed.
  Lemma m_step a b : plain_step ts' a b <-> plain_step ts a b.
  Proof.
    unfold plain_step. rewrite m_lookup. destruct (tident_eq_dec i a) as [<-|]; [|tauto].
    split; intros (t & L & V); [injection L as <-; destruct m; discriminate V|congruence].
  Qed.

  Lemma m_leaf t : In t l -> exists tt, lookup (ut_type t) ts = Some tt /\ lookup (ut_type t) ts' = Some tt /\
    (forall y, m_variant tt <> VUnion y) /\ (forall j, ~ plain_step ts (ut_type t) j) /\ forall j, ~ plain_step ts' (ut_type t) j.
  Proof.
    intros I. destruct (leaves_are ts) as [A _]. specialize (A _ _ _ Lv). rewrite Forall_forall in A.
    destruct (A _ I) as (_ & tt & Lt & NU & NS). exists tt. split; [exact Lt|].
    split; [|split; [exact NU|split; [exact NS|intros j; rewrite m_step; apply NS]]].
    rewrite m_lookup. destruct (tident_eq_dec i (ut_type t)) as [E|]; [|exact Lt]. exfalso. rewrite <- E in Lt.
    assert (tt = ty) by congruence. subst. eapply NU; exact Vi.
  Qed.

  Lemma m_self id : offers ts' i id <-> offers ts i id.
  Proof.
    destruct (offers_leaves ts) as [OL _]. rewrite (OL _ _ _ Lv).
    destruct (mergeL_none ts l) as [[_ E]|[[_ E]|(_ & NE & E)]]; rewrite Mm in E; [discriminate| |]; injection E as Em.
    - assert (S : offers ts' i id <-> In id (map ev_ident (adds (flat_map (contributions ts) l) []))).
      { assert (L' : lookup i ts' = Some (set_variant ty (merged_variant (MEnum (adds (flat_map (contributions ts) l) []))))).
        { rewrite m_lookup. destruct (tident_eq_dec i i); [rewrite Em; reflexivity|congruence]. }
        clear Em.
        split.
        - intros H. inversion H; subst.
          + apply m_step in H0. exfalso. eapply step_not_union; eassumption.
          + rewrite L' in H0. injection H0 as <-. discriminate H1.
          + rewrite L' in H0. injection H0 as <-. injection H1 as <-. cbn in H2. apply in_map. exact H2.
          + rewrite L' in H0. injection H0 as <-. exfalso. eapply H2. reflexivity.
        - intros H. apply in_map_iff in H. destruct H as (v & <- & I). eapply offers_literal; [exact L'|reflexivity|exact I]. }
      rewrite S, adds_idents. cbn. rewrite Exists_exists. unfold leaf_offers. split.
      + intros [H|[]]. apply in_map_iff in H. destruct H as (c & <- & H). apply in_flat_map in H. destruct H as (t & It & Ic).
        exists t. split; [exact It|]. apply in_map_iff. exists c. auto.
      + intros (t & It & H). left. apply in_map_iff in H. destruct H as (c & <- & Ic). apply in_map_iff. exists c.
        split; [reflexivity|]. apply in_flat_map. eauto.
    - assert (L' : lookup i ts' = Some (set_variant ty (merged_variant (MUnion l)))).
      { rewrite m_lookup. destruct (tident_eq_dec i i); [rewrite Em; reflexivity|congruence]. }
        clear Em.
      assert (Lf : forall t, In t l -> offers ts' (ut_type t) id <-> leaf_offers ts t id).
      { intros t It. destruct (m_leaf t It) as (tt & A1 & A2 & A3 & A4 & A5).
        rewrite (offers_leaf ts' (ut_type t) (ut_display t) tt A2 A3 A5). unfold leaf_offers, contributions, get_variant. cbn. rewrite A1, A2. tauto. }
      rewrite Exists_exists. split.
      + intros H. inversion H; subst.
        * apply m_step in H0. exfalso. eapply step_not_union; eassumption.
        * rewrite L' in H0. injection H0 as <-. injection H1 as <-. cbn in H2. exists t. split; [exact H2|]. apply Lf; assumption.
        * rewrite L' in H0. injection H0 as <-. discriminate H1.
        * rewrite L' in H0. injection H0 as <-. exfalso. eapply H1. reflexivity.
      + intros (t & It & H). eapply offers_union; [exact L'|reflexivity|exact It|]. apply Lf; assumption.
  Qed.

  Lemma m_offers j id : offers ts' j id <-> offers ts j id.
  Proof.
    split.
    - induction 1 as [j k id S O IH|j tj y t id L V I O IH|j tj y v L V I|j tj L NU NE NS].
      + eapply offers_alias; [apply m_step; exact S|exact IH].
      + destruct (tident_eq_dec i j) as [<-|D].
        * apply m_self. eapply offers_union; eassumption.
        * rewrite m_lookup in L. destruct (tident_eq_dec i j); [congruence|]. eapply offers_union; eassumption.
      + destruct (tident_eq_dec i j) as [<-|D].
        * apply m_self. eapply offers_literal; eassumption.
        * rewrite m_lookup in L. destruct (tident_eq_dec i j); [congruence|]. eapply offers_literal; eassumption.
      + destruct (tident_eq_dec i j) as [<-|D].
        * apply m_self. eapply offers_other; eassumption.
        * rewrite m_lookup in L. destruct (tident_eq_dec i j); [congruence|]. eapply offers_other; try eassumption.
          intros k. rewrite <- m_step. apply NS.
    - induction 1 as [j k id S O IH|j tj y t id L V I O IH|j tj y v L V I|j tj L NU NE NS].
      + eapply offers_alias; [apply m_step; exact S|exact IH].
      + destruct (tident_eq_dec i j) as [<-|D].
        * apply m_self. eapply offers_union; eassumption.
        * eapply offers_union; try eassumption. rewrite m_lookup. destruct (tident_eq_dec i j); [congruence|exact L].
      + destruct (tident_eq_dec i j) as [<-|D]; [congruence|].
        eapply offers_literal; try eassumption. rewrite m_lookup. destruct (tident_eq_dec i j); [congruence|exact L].
      + destruct (tident_eq_dec i j) as [<-|D]; [exfalso; assert (tj = ty) by congruence; subst; eapply NU; exact Vi|].
        eapply offers_other; try eassumption.
        * rewrite m_lookup. destruct (tident_eq_dec i j); [congruence|exact L].
        * intros k. rewrite m_step. apply NS.
  Qed.
End Merge.

Lemma merge_one fuel o i ty x r : lookup i (o_types o) = Some ty -> m_variant ty = VUnion x ->
  merge_enum_union fuel o i = Some r -> exists o' l, r = Ok o' /\ leaves (o_types o) i None l /\
    o_typedefs o' = o_typedefs o /\ o_bases o' = o_bases o /\
    map fst (o_types o') = map fst (o_types o) /\
    (forall j, j <> i -> lookup j (o_types o') = lookup j (o_types o)) /\
    (forall a b, plain_step (o_types o') a b <-> plain_step (o_types o) a b) /\
    (forall j id, offers (o_types o') j id <-> offers (o_types o) j id) /\
    lookup i (o_types o') = Some (match mergeL (o_types o) l None with
                                  | Some m => set_variant ty (merged_variant m)
                                  | None => ty
                                  end).
Proof.
  intros L V H. unfold merge_enum_union, get_variant in H. rewrite L in H. cbn in H. rewrite V in H.
  destruct (merge_impl fuel (o_types o) i None None) as [[m|]|] eqn:E; [| |discriminate]; injection H as <-.
  - destruct (merge_sound _ _ _ _ _ _ E) as (l & Lv & Em). symmetry in Em. eexists. exists l. split; [reflexivity|].
    split; [exact Lv|]. split; [reflexivity|]. split; [reflexivity|]. cbn. split; [apply set_keys|].
    pose proof (m_lookup _ i ty m L) as ML. split; [intros j D; rewrite ML; destruct (tident_eq_dec i j); congruence|].
    split; [exact (m_step _ i ty x l m L V Em)|]. split; [exact (m_offers _ i ty x l m L V Lv Em)|].
    rewrite ML. destruct (tident_eq_dec i i); [rewrite Em; reflexivity|congruence].
  - destruct (merge_sound _ _ _ _ _ _ E) as (l & Lv & Em). exists o, l. split; [reflexivity|]. split; [exact Lv|].
    rewrite <- Em. repeat split; auto.
Qed.

Lemma merge_all fuel o r : NoDup (map fst (o_types o)) -> merge_enum_unions fuel o = Some r ->
  exists o', r = Ok o' /\ map fst (o_types o') = map fst (o_types o) /\ o_typedefs o' = o_typedefs o /\ o_bases o' = o_bases o /\
    (forall a b, plain_step (o_types o') a b <-> plain_step (o_types o) a b) /\
    (forall j id, offers (o_types o') j id <-> offers (o_types o) j id) /\
    forall i ty, lookup i (o_types o) = Some ty -> (forall x, m_variant ty <> VUnion x) -> lookup i (o_types o') = Some ty.
Proof.
  intros ND H.
  set (Rel := fun o' (done : list tident) => map fst (o_types o') = map fst (o_types o) /\ o_typedefs o' = o_typedefs o /\ o_bases o' = o_bases o /\
    (forall a b, plain_step (o_types o') a b <-> plain_step (o_types o) a b) /\
    (forall j id, offers (o_types o') j id <-> offers (o_types o) j id) /\
    forall i, ~ In i done -> lookup i (o_types o') = lookup i (o_types o)).
  apply (@on_unions_step Rel (merge_enum_union fuel) o ND) in H.
  - destruct H as (o' & E & A1 & A2 & A3 & A4 & A5 & A6). exists o'. split; [exact E|]. repeat (split; [assumption|]).
    intros i ty L NU. rewrite A6; [exact L|]. intros I. apply union_idents_in in I. destruct I as (t & x & I & V).
    apply (lookup_unique _ _ _ ND) in I. assert (t = ty) by congruence. subst. eapply NU; exact V.
  - intros o1 done i ty x r0 (A1 & A2 & A3 & A4 & A5 & A6) NI L V P. rewrite <- (A6 i NI) in L.
    destruct (merge_one _ _ _ _ _ _ L V P) as (o' & l & E & _ & B2 & B3 & B1 & B6 & B4 & B5 & _).
    exists o'. split; [exact E|]. split; [congruence|]. split; [congruence|]. split; [congruence|].
    split; [intros; rewrite B4; apply A4|]. split; [intros; rewrite B5; apply A5|].
    intros j NJ. rewrite B6; [apply A6|]; intros X; apply NJ, in_app_iff; [left; exact X|right; left; congruence].
  - unfold Rel. repeat split; auto.
Qed.

(** The types a member stands for, merged. *)
Lemma merge_exact fuel o i ty x r : lookup i (o_types o) = Some ty -> m_variant ty = VUnion x ->
  merge_enum_union fuel o i = Some r -> exists o' l, r = Ok o' /\ leaves (o_types o) i None l /\
    (forall j, j <> i -> lookup j (o_types o') = lookup j (o_types o)) /\
    ((l = [] /\ lookup i (o_types o') = Some ty) \/
     (l <> [] /\ Forall (fun t => ~ is_enum (o_types o) t) l /\
        lookup i (o_types o') = Some (set_variant ty (VUnion (UnionMeta BaseNone l no_constrains)))) \/
     (Exists (is_enum (o_types o)) l /\ exists vs,
        lookup i (o_types o') = Some (set_variant ty (VEnumeration (EnumMeta BaseNone vs no_constrains))) /\
        NoDup (map ev_ident vs) /\
        (forall id, In id (map ev_ident vs) <-> exists t, In t l /\ In id (map (fun c => fst (fst c)) (contributions (o_types o) t))) /\
        (forall v, In v vs -> exists t d, In t l /\ In (ev_ident v, ev_type v, d) (contributions (o_types o) t)) /\
        (NoDup (map (fun c => fst (fst c)) (flat_map (contributions (o_types o)) l)) ->
           vs = map variant_of (flat_map (contributions (o_types o)) l)))).
Proof.
  intros L V H. destruct (merge_one _ _ _ _ _ _ L V H) as (o' & l & E & Lv & _ & _ & _ & Oth & _ & _ & Li).
  exists o', l. split; [exact E|]. split; [exact Lv|]. split; [exact Oth|].
  destruct (mergeL_none (o_types o) l) as [(El & M)|[(X & M)|(N & F & M)]]; rewrite M in Li.
  - left. auto.
  - right. right. split; [exact X|]. eexists. split; [exact Li|]. split; [apply adds_nodup; constructor|].
    split; [|split].
    + intros id. rewrite adds_idents. cbn. split.
      * intros [I|[]]. apply in_map_iff in I. destruct I as (c & <- & I). apply in_flat_map in I. destruct I as (t & It & Ic).
        exists t. split; [exact It|]. apply in_map_iff. eauto.
      * intros (t & It & I). left. apply in_map_iff in I. destruct I as (c & <- & Ic). apply in_map_iff. exists c.
        split; [reflexivity|]. apply in_flat_map. eauto.
    + intros v I. apply adds_types in I. destruct I as [(d & I)|(w & [] & _)]. apply in_flat_map in I.
      destruct I as (t & It & Ic). eauto.
    + intros ND. apply (adds_new _ []). exact ND.
  - right. left. auto.
Qed.
