From Coq Require Import PeanoNat.
From Verif Require NameModel NameProofs.
From Verif Require Import MetaModel MetaSpec MetaProofs DupModel DupProofs OptModel OptSpec OptProofs UnionModel UnionProofs
  FlatModel FlatProofs PassModel PassSpec PassProofs.

(** * Merging dynamic types *)

Lemma foldM_ind {A B} (f : A -> B -> option B) (R : list A -> B -> B -> Prop) l :
  (forall b, R [] b b) -> (forall a l b b1 b2, f a b = Some b1 -> R l b1 b2 -> R (a :: l) b b2) ->
  forall b b', foldM f l b = Some b' -> R l b b'.
Proof.
  intros R0 RS. induction l as [|a l IH]; intros b b'.
  - cbn. intros [= <-]. apply R0.
  - rewrite foldM_cons. destruct (f a b) as [b1|] eqn:E; [|discriminate]. intros H. eapply RS; [exact E|]. apply IH. exact H.
Qed.

Lemma add_derived_expanded fuel ts base : forall old new l, add_derived_types fuel ts base old new = Some l ->
  exists all, expanded ts base old all /\ l = fold_left (fun acc e => or_insert e acc) all new.
Proof.
  induction fuel as [|fuel IH]; intros old new l; [discriminate|]. cbn [add_derived_types].
  apply (foldM_ind _ (fun old new l => exists all, expanded ts base old all /\ l = fold_left (fun acc e => or_insert e acc) all new)).
  - intros b. exists []. split; [constructor|reflexivity].
  - intros e o b b1 b2 S (all & E & ->).
    assert (K : ~ (stands_for_base ts base e /\ exists d, dynamic_entries ts base d) -> b1 = or_insert e b ->
      exists all0, expanded ts base (e :: o) all0 /\ fold_left (fun acc e0 => or_insert e0 acc) all b1 = fold_left (fun acc e0 => or_insert e0 acc) all0 b).
    { intros N ->. exists (e :: all). split; [constructor; assumption|reflexivity]. }
    destruct (get_resolved ts (dt_type (snd e))) as [[i ty]|] eqn:G.
    + destruct (tident_eq_dec base i) as [->|D].
      * destruct (resolved_spec _ _ _ _ G) as (_ & L & _).
        assert (NK : (forall dm, m_variant ty <> VDynamic dm) -> ~ (stands_for_base ts i e /\ exists d, dynamic_entries ts i d)).
        { intros ND (_ & d & t & dm & Lt & V & _). assert (t = ty) by congruence. subst. exact (ND _ V). }
        destruct (m_variant ty) as [| | | | |dm| | | | |] eqn:V; try (injection S as <-; apply K; [apply NK; discriminate|reflexivity]).
        apply IH in S. destruct S as (d' & Ed & ->). exists (d' ++ all). split.
        -- eapply exp_base; [| |exact Ed|exact E].
           ++ unfold stands_for_base, get_resolved_ident. rewrite G. reflexivity.
           ++ exists ty, dm. auto.
        -- rewrite fold_left_app. reflexivity.
      * injection S as <-. apply K; [|reflexivity]. intros (St & _). unfold stands_for_base, get_resolved_ident in St. rewrite G in St.
        injection St as <-. congruence.
    + injection S as <-. apply K; [|reflexivity]. intros (St & _). unfold stands_for_base, get_resolved_ident in St. rewrite G in St. discriminate.
Qed.

Lemma insert_firsts all : forall before new, (forall k, In k (map fst before) <-> In k (map fst new)) ->
  exists l', fold_left (fun acc e => or_insert e acc) all new = new ++ l' /\ firsts same_key before all l'.
Proof.
  induction all as [|e all IH]; intros before new K; cbn; [exists []; split; [symmetry; apply app_nil_r|constructor]|].
  unfold or_insert at 2. destruct (lookup (fst e) new) as [d|] eqn:L.
  - assert (I : In (fst e) (map fst before)) by (apply K; eapply lookup_key; exact L).
    apply in_map_iff in I. destruct I as (b & Eb & Ib).
    destruct (IH (before ++ [e]) new) as (l' & E & F).
    { intros k. rewrite map_app, in_app_iff. cbn. rewrite K. split; [|auto]. intros [H|[<-|[]]]; [exact H|]. eapply lookup_key; exact L. }
    exists l'. split; [exact E|]. eapply firsts_old; [exact Ib| |exact F]. symmetry. exact Eb.
  - destruct (IH (before ++ [e]) (new ++ [e])) as (l' & E & F).
    { intros k. rewrite !map_app, !in_app_iff. rewrite K. tauto. }
    exists (e :: l'). split; [rewrite E, <- app_assoc; reflexivity|]. apply firsts_new; [|exact F].
    intros b Ib Sk. apply lookup_none in L. apply L. apply K. rewrite Sk. apply in_map. exact Ib.
Qed.

Lemma merge_dynamic_spec fuel o i ty dm o' : lookup i (o_types o) = Some ty -> m_variant ty = VDynamic dm ->
  merge_dynamic_type fuel o i = Some (Ok o') ->
  (forall j, j <> i -> lookup j (o_types o') = lookup j (o_types o)) /\
  ((forall t base, dy_type dm = Some t -> get_resolved_ident (o_types o) t <> Some base) -> o' = o) /\
  forall t base, dy_type dm = Some t -> get_resolved_ident (o_types o) t = Some base ->
    exists all l', expanded (o_types o) base (dy_derived dm) all /\ firsts same_key [] all l' /\
      lookup i (o_types o') = Some (set_variant ty (VDynamic (DynMeta (dy_type dm) (dy_abstract dm) l'))).
Proof.
  intros L V H. unfold merge_dynamic_type, get_variant in H. rewrite L in H. cbn [option_map] in H. rewrite V in H.
  destruct (match dy_type dm with Some t => get_resolved_ident (o_types o) t | None => None end) as [base|] eqn:B.
  - destruct (add_derived_types fuel (o_types o) base (dy_derived dm) []) as [l|] eqn:A; [|discriminate]. injection H as <-. unfold with_types; cbn [o_types].
    destruct (dy_type dm) as [t|]; [|discriminate].
    split; [intros j D; rewrite lookup_set; destruct (tident_eq_dec i j); congruence|].
    split; [intros N; exfalso; exact (N _ _ eq_refl B)|].
    intros t' base' [= <-] B'. assert (base' = base) by congruence. subst.
    destruct (add_derived_expanded _ _ _ _ _ _ A) as (all & E & ->).
    destruct (insert_firsts all [] []) as (l' & El & F); [tauto|]. exists all, l'. split; [exact E|]. split; [exact F|].
    rewrite lookup_set. destruct (tident_eq_dec i i); [|congruence]. rewrite L. cbn [option_map]. rewrite El. reflexivity.
  - injection H as <-. split; [auto|]. split; [auto|]. intros t base Et G. rewrite Et in B. congruence.
Qed.

Lemma merge_one_frame fuel o i o' : merge_dynamic_type fuel o i = Some (Ok o') ->
  map fst (o_types o') = map fst (o_types o) /\
  forall j ty, lookup j (o_types o) = Some ty ->
    match m_variant ty with
    | VDynamic dm => exists kept, lookup j (o_types o') = Some (set_variant ty (VDynamic (DynMeta (dy_type dm) (dy_abstract dm) kept)))
    | _ => lookup j (o_types o') = Some ty
    end.
Proof.
  intros H. unfold merge_dynamic_type, get_variant in H. destruct (lookup i (o_types o)) as [t|] eqn:L; cbn [option_map] in H; [|discriminate].
  assert (Same : map fst (o_types o) = map fst (o_types o) /\
    forall j ty, lookup j (o_types o) = Some ty ->
    match m_variant ty with
    | VDynamic dm => exists kept, lookup j (o_types o) = Some (set_variant ty (VDynamic (DynMeta (dy_type dm) (dy_abstract dm) kept)))
    | _ => lookup j (o_types o) = Some ty
    end).
  { split; [reflexivity|]. intros j ty Lj. destruct ty as [v a b c d e]. cbn. destruct v as [| | | | |dm| | | | |]; try exact Lj.
    exists (dy_derived dm). rewrite Lj. destruct dm. reflexivity. }
  destruct (m_variant t) as [| | | | |dm| | | | |] eqn:V; try discriminate.
  destruct (match dy_type dm with Some x => get_resolved_ident (o_types o) x | None => None end) as [base|];
    [|injection H as <-; exact Same].
  destruct (add_derived_types _ _ _ _ _) as [l|]; [|discriminate]. injection H as <-. unfold with_types; cbn [o_types].
  split; [apply set_keys|]. intros j ty Lj. rewrite lookup_set. destruct (tident_eq_dec i j) as [<-|D].
  - assert (t = ty) by congruence. subst t. rewrite V, L. exists l. reflexivity.
  - destruct Same as [_ S]. exact (S _ _ Lj).
Qed.
Lemma merge_frame_trans (ts1 ts2 ts3 : types) : 
  (forall j ty, lookup j ts1 = Some ty ->
    match m_variant ty with
    | VDynamic dm => exists kept, lookup j ts2 = Some (set_variant ty (VDynamic (DynMeta (dy_type dm) (dy_abstract dm) kept)))
    | _ => lookup j ts2 = Some ty
    end) ->
  (forall j ty, lookup j ts2 = Some ty ->
    match m_variant ty with
    | VDynamic dm => exists kept, lookup j ts3 = Some (set_variant ty (VDynamic (DynMeta (dy_type dm) (dy_abstract dm) kept)))
    | _ => lookup j ts3 = Some ty
    end) ->
  forall j ty, lookup j ts1 = Some ty ->
    match m_variant ty with
    | VDynamic dm => exists kept, lookup j ts3 = Some (set_variant ty (VDynamic (DynMeta (dy_type dm) (dy_abstract dm) kept)))
    | _ => lookup j ts3 = Some ty
    end.
Proof.
  intros A B j ty L. specialize (A j ty L). destruct (m_variant ty) as [| | | | |dm| | | | |] eqn:V;
    try (specialize (B j ty A); rewrite V in B; exact B).
  destruct A as (k & A). apply B in A. cbn in A. exact A.
Qed.
Lemma merge_dynamics_frame fuel o o' : merge_dynamic_types fuel o = Some (Ok o') ->
  map fst (o_types o') = map fst (o_types o) /\
  forall i ty, lookup i (o_types o) = Some ty ->
    match m_variant ty with
    | VDynamic dm => exists kept, lookup i (o_types o') = Some (set_variant ty (VDynamic (DynMeta (dy_type dm) (dy_abstract dm) kept)))
    | _ => lookup i (o_types o') = Some ty
    end.
Proof.
  unfold merge_dynamic_types.
  assert (Id : forall o, map fst (o_types o) = map fst (o_types o) /\
    forall j ty, lookup j (o_types o) = Some ty ->
    match m_variant ty with
    | VDynamic dm => exists kept, lookup j (o_types o) = Some (set_variant ty (VDynamic (DynMeta (dy_type dm) (dy_abstract dm) kept)))
    | _ => lookup j (o_types o) = Some ty
    end).
  { intros o0. split; [reflexivity|]. intros j ty Lj. destruct ty as [v a b c d e]. cbn. destruct v as [| | | | |dm| | | | |]; try exact Lj.
    exists (dy_derived dm). rewrite Lj. destruct dm. reflexivity. }
  assert (F0 : forall ids, fold_left (fun acc i => match acc with
     | Some (Ok o) => match merge_dynamic_type fuel o i with Some (Err _) => Some (Ok o) | r => r end | r => r end) ids None = None).
  { induction ids; cbn; auto. }
  assert (F1 : forall ids e, fold_left (fun acc i => match acc with
     | Some (Ok o) => match merge_dynamic_type fuel o i with Some (Err _) => Some (Ok o) | r => r end | r => r end) ids (Some (Err e)) = Some (Err e)).
  { induction ids; cbn; auto. }
  assert (F2 : forall ids, fold_left (fun acc i => match acc with
     | Some (Ok o) => match merge_dynamic_type fuel o i with Some (Err _) => Some (Ok o) | r => r end | r => r end) ids (Some Panic) = Some Panic).
  { induction ids; cbn; auto. }
  generalize (dynamic_idents (o_types o)). intros ids. revert o. induction ids as [|i ids IH]; intros o H; cbn in H.
  - injection H as <-. apply Id.
  - destruct (merge_dynamic_type fuel o i) as [[o1|e|]|] eqn:M.
    + apply merge_one_frame in M. destruct (IH _ H) as [K F]. destruct M as [K1 F1']. split; [congruence|].
      exact (merge_frame_trans _ _ _ F1' F).
    + exact (IH _ H).
    + rewrite F2 in H. discriminate.
    + rewrite F0 in H. discriminate.
Qed.

(** ** Does it end? *)

Lemma foldM_total {A B} (f : A -> B -> option B) l : (forall a b, In a l -> f a b <> None) -> forall b, foldM f l b <> None.
Proof.
  induction l as [|a l IH]; intros H b; [discriminate|]. rewrite foldM_cons. destruct (f a b) eqn:E.
  - apply IH. intros; apply H. right. assumption.
  - exfalso. apply (H a b); [left; reflexivity|exact E].
Qed.
Lemma add_ends fuel ts base : ~ loops_at ts base -> forall old new, 2 <= fuel -> add_derived_types fuel ts base old new <> None.
Proof.
  intros NL old new L. destruct fuel as [|[|fuel]]; [lia|lia|].
  assert (IN : forall d new, dynamic_entries ts base d -> add_derived_types (S fuel) ts base d new <> None).
  { intros d new' D. cbn [add_derived_types]. apply foldM_total. intros e b Ie.
    destruct (get_resolved ts (dt_type (snd e))) as [[i ty]|] eqn:G; [|discriminate].
    destruct (tident_eq_dec base i) as [->|N]; [|discriminate].
    exfalso. apply NL. exists d, e. split; [exact D|]. split; [exact Ie|]. unfold stands_for_base, get_resolved_ident. rewrite G. reflexivity. }
  cbn [add_derived_types]. apply foldM_total. intros e b Ie.
  destruct (get_resolved ts (dt_type (snd e))) as [[i ty]|] eqn:G; [|discriminate].
  destruct (tident_eq_dec base i) as [->|N]; [|discriminate].
  destruct (m_variant ty) as [| | | | |dm| | | | |] eqn:V; try discriminate.
  apply IN. destruct (resolved_spec _ _ _ _ G) as (_ & Li & _). exists ty, dm. auto.
Qed.
Lemma foldM_fails {A B} (f : A -> B -> option B) l a : In a l -> (forall b, f a b = None) -> forall b, foldM f l b = None.
Proof.
  induction l as [|x l IH]; intros I F b; [destruct I|]. rewrite foldM_cons. destruct (f x b) as [b'|] eqn:E; [|reflexivity].
  destruct I as [->|I]; [rewrite F in E; discriminate|]. apply IH; assumption.
Qed.
Lemma add_endless fuel ts base : loops_at ts base -> forall old new e, In e old -> stands_for_base ts base e ->
  add_derived_types fuel ts base old new = None.
Proof.
  intros (d & e0 & (ty & dm & L & V & Ed) & I0 & S0). induction fuel as [|fuel IH]; intros old new e I S; [reflexivity|].
  cbn [add_derived_types]. eapply foldM_fails; [exact I|]. intros b.
  unfold stands_for_base, get_resolved_ident in S. destruct (get_resolved ts (dt_type (snd e))) as [[i t]|] eqn:G; [|discriminate].
  cbn in S. injection S as ->. destruct (tident_eq_dec base base); [|congruence].
  destruct (resolved_spec _ _ _ _ G) as (_ & Li & _). assert (t = ty) by congruence. subst t. rewrite V. rewrite Ed. exact (IH _ _ _ I0 S0).
Qed.

(** * Dynamic types as choices *)

Lemma mark_ident k m e : el_ident (mark_element k m e) = el_ident e.
Proof. unfold mark_element. destruct (ti_type k); try reflexivity. destruct (dt_rel m); reflexivity. Qed.
Definition flags_of (k : tident) (m : derived_meta) : nat :=
  match ti_type k with
  | ITType => match dt_rel m with RelConcrete => Nat.lor fl_by_type fl_default | _ => fl_by_type end
  | ITElement => fl_by_tag
  | _ => 0
  end.
Lemma mark_eq k m e : mark_element k m e = add_flag (flags_of k m) e.
Proof.
  unfold mark_element, flags_of. destruct e as [id v f fl mn mx di doc].
  destruct (ti_type k); try (unfold add_flag; cbn -[Nat.lor]; rewrite Nat.lor_0_r; reflexivity); try reflexivity.
  destruct (dt_rel m); try reflexivity. unfold add_flag. cbn -[Nat.lor]. rewrite <- Nat.lor_assoc. reflexivity.
Qed.

(** The elements so far, for the entries [d]. *)
Definition core (form : form_meta) (d : list (tident * derived_meta)) (p : tident * derived_meta) (e : element_meta) : Prop :=
  el_ident e = ti_property (fst p) /\
  el_variant e = EVType (dt_type (snd p)) ModeElement /\ el_form e = form /\
  el_min e = 1 /\ el_max e = Bounded 1 /\ el_display e = dt_display (snd p) /\
  forall b, Nat.testbit (el_flags e) b = true <->
    exists q, In q d /\ ti_property (fst q) = ti_property (fst p) /\ Nat.testbit (flags_of (fst q) (snd q)) b = true.

Lemma core_more form d p e q : core form d p e -> ti_property (fst q) <> ti_property (fst p) -> core form (d ++ [q]) p e.
Proof.
  intros (A1 & A2 & A3 & A4 & A5 & A6 & A7) N. repeat (split; [assumption|]). intros b. rewrite A7. split.
  - intros (x & I & E & T). exists x. rewrite in_app_iff. auto.
  - intros (x & I & E & T). rewrite in_app_iff in I. destruct I as [I|[->|[]]]; [exists x; auto|congruence].
Qed.
Lemma core_add form d p e q : core form d p e -> ti_property (fst q) = ti_property (fst p) ->
  core form (d ++ [q]) p (mark_element (fst q) (snd q) e).
Proof.
  intros (A1 & A2 & A3 & A4 & A5 & A6 & A7) N. rewrite mark_eq. repeat (split; [assumption|]). unfold add_flag; cbn [el_flags]. intros b.
  rewrite Nat.lor_spec, orb_true_iff, A7. split.
  - intros [(x & I & E & T)|T]; [exists x|exists q]; rewrite in_app_iff; cbn [In]; auto.
  - intros (x & I & E & T). rewrite in_app_iff in I. destruct I as [I|[->|[]]]; [left; exists x; auto|right; exact T].
Qed.
Lemma core_new form d q : (forall p, In p d -> ti_property (fst p) <> ti_property (fst q)) ->
  core form (d ++ [q]) q (mark_element (fst q) (snd q) (derived_element (ti_property (fst q)) form (snd q))).
Proof.
  intros N. rewrite mark_eq. repeat (split; [reflexivity|]). unfold add_flag, derived_element; cbn [el_flags]. intros b. rewrite Nat.lor_0_l. split.
  - intros T. exists q. rewrite in_app_iff. cbn [In]. auto.
  - intros (x & I & E & T). rewrite in_app_iff in I. destruct I as [I|[->|[]]]; [exfalso; exact (N _ I E)|exact T].
Qed.

Lemma prop_eq (a b : tident * derived_meta) : same_property a b <-> ti_property (fst a) = ti_property (fst b).
Proof.
  unfold same_property, ti_property. split; [intros [-> ->]; reflexivity|]. intros H. injection H as -> ->. auto.
Qed.

(** One more entry. *)
Lemma step_elements form d q l es : Forall2 (core form d) l es -> (forall p, In p l -> In p d) ->
  (forall p, In p d -> exists p', In p' l /\ ti_property (fst p') = ti_property (fst p)) ->
  NoDup (map (fun p => ti_property (fst p)) l) ->
  let es' := update_element (ti_property (fst q)) (derived_element (ti_property (fst q)) form (snd q)) (mark_element (fst q) (snd q)) es in
  (exists p, In p d /\ ti_property (fst q) = ti_property (fst p) /\ Forall2 (core form (d ++ [q])) l es') \/
  ((forall p, In p d -> ti_property (fst p) <> ti_property (fst q)) /\ Forall2 (core form (d ++ [q])) (l ++ [q]) es').
Proof.
  intros F Sub Cov ND es'.
  destruct (in_dec pident_eq_dec (ti_property (fst q)) (map (fun p => ti_property (fst p)) l)) as [I|N].
  - left. pose proof I as I0. apply in_map_iff in I. destruct I as (p & Ep & Ip). exists p. split; [auto|]. split; [auto|].
    clear Sub Cov Ip Ep p. unfold es'. clear es'. revert ND I0. induction F as [|p e l es C F IH]; cbn [map update_element]; intros ND I0; [destruct I0|].
    inversion ND as [|? ? N1 N2]; subst. pose proof C as C'. destruct C' as (Ee & _). rewrite Ee.
    destruct (pident_eq_dec (ti_property (fst p)) (ti_property (fst q))) as [E|D].
    + constructor; [apply core_add; [exact C|auto]|]. clear IH I0.
      assert (X : forall p', In p' l -> ti_property (fst q) <> ti_property (fst p')).
      { intros p' I E'. apply N1. rewrite E. rewrite E'. apply in_map_iff. exists p'. auto. }
      clear -F X. induction F as [|p' e' l es C F IH]; constructor.
      * apply core_more; [exact C|]. apply X. left. reflexivity.
      * apply IH. intros; apply X. right. assumption.
    + constructor; [apply core_more; [exact C|congruence]|]. apply IH; [exact N2|].
      destruct I0 as [X|X]; [congruence|exact X].
  - right. assert (X : forall p, In p d -> ti_property (fst p) <> ti_property (fst q)).
    { intros p I E. destruct (Cov _ I) as (p' & I' & E'). apply N. apply in_map_iff. exists p'. split; [congruence|exact I']. }
    split; [exact X|]. unfold es'. clear es' ND Cov. induction F as [|p e l es C F IH]; cbn [map update_element app].
    + constructor; [|constructor]. apply core_new. exact X.
    + pose proof C as C'. destruct C' as (Ee & _). rewrite Ee. destruct (pident_eq_dec (ti_property (fst p)) (ti_property (fst q))) as [E|D].
      * exfalso. apply N. left. exact E.
      * constructor; [apply core_more; [exact C|congruence]|]. apply IH; [intros; apply Sub; right; assumption|].
        intros I. apply N. right. exact I.
Qed.

Lemma nodup_snoc_map (l : list (tident * derived_meta)) q : NoDup (map (fun p => ti_property (fst p)) l) ->
  (forall p, In p l -> ti_property (fst p) <> ti_property (fst q)) -> NoDup (map (fun p => ti_property (fst p)) (l ++ [q])).
Proof.
  intros N H. rewrite map_app. cbn. apply nodup_snoc; [exact N|]. rewrite in_map_iff. intros (p & E & I). exact (H _ I E).
Qed.

Lemma add_elements_core form d : forall before l es, Forall2 (core form before) l es -> (forall p, In p l -> In p before) ->
  (forall p, In p before -> exists p', In p' l /\ ti_property (fst p') = ti_property (fst p)) ->
  NoDup (map (fun p => ti_property (fst p)) l) ->
  exists l', firsts same_property before d l' /\ Forall2 (core form (before ++ d)) (l ++ l') (add_elements form d es) /\
    NoDup (map (fun p => ti_property (fst p)) (l ++ l')).
Proof.
  induction d as [|q d IH]; intros before l es F Sub Cov ND.
  - exists []. rewrite !app_nil_r. split; [constructor|]. split; assumption.
  - pose proof (step_elements form before q l es F Sub Cov ND) as S. cbv zeta in S.
    cbn [add_elements fold_left]. fold (add_elements form d).
    destruct S as [(p & Ip & Ep & F')|(N & F')].
    + destruct (IH (before ++ [q]) l _ F') as (l' & Fi & Fc & ND').
      * intros x I. rewrite in_app_iff. auto.
      * intros x I. rewrite in_app_iff in I. destruct I as [I|[<-|[]]]; [auto|]. destruct (Cov _ Ip) as (p' & I' & E'). exists p'.
        split; [exact I'|congruence].
      * exact ND.
      * exists l'. split; [eapply firsts_old; [exact Ip|apply prop_eq; exact Ep|exact Fi]|].
        rewrite <- app_assoc in Fc. split; assumption.
    + destruct (IH (before ++ [q]) (l ++ [q]) _ F') as (l' & Fi & Fc & ND').
      * intros x I. rewrite in_app_iff in *. cbn in *. destruct I as [I|I]; [left; auto|right; exact I].
      * intros x I. rewrite in_app_iff in I. destruct I as [I|[<-|[]]].
        -- destruct (Cov _ I) as (p' & I' & E'). exists p'. rewrite in_app_iff. auto.
        -- exists q. rewrite in_app_iff. cbn. auto.
      * apply nodup_snoc_map; [exact ND|]. intros p I. apply N. auto.
      * exists (q :: l'). rewrite <- app_assoc in Fc, ND'. cbn in Fc, ND'. split; [|split; [|exact ND']].
        -- apply firsts_new; [|exact Fi]. intros b Ib Sp. apply prop_eq in Sp. apply (N _ Ib). auto.
        -- rewrite <- app_assoc in Fc. exact Fc.
Qed.

Lemma core_represents form d p e : core form d p e -> represents form d p e.
Proof.
  intros (A1 & A2 & A3 & A4 & A5 & A6 & A7). unfold represents. split; [exact A1|]. repeat (split; [assumption|]).
  unfold by_type, by_tag, by_default.
  assert (SP : forall q, ti_property (fst q) = ti_property (fst p) <-> same_property p q).
  { intros q. rewrite prop_eq. split; congruence. }
  split; [|split]; rewrite A7; split; intros (q & I & E & T).
  - exists q. split; [exact I|]. split; [apply SP, E|]. unfold flags_of in T. destruct (ti_type (fst q)); try discriminate; auto.
  - exists q. split; [exact I|]. split; [apply SP, E|]. unfold flags_of. rewrite T. destruct (dt_rel (snd q)); reflexivity.
  - exists q. split; [exact I|]. split; [apply SP, E|]. unfold flags_of in T. destruct (ti_type (fst q)); try discriminate; auto.
    destruct (dt_rel (snd q)); discriminate.
  - exists q. split; [exact I|]. split; [apply SP, E|]. unfold flags_of. rewrite T. reflexivity.
  - exists q. split; [exact I|]. split; [apply SP, E|]. unfold flags_of in T. destruct (ti_type (fst q)); try discriminate.
    destruct (dt_rel (snd q)); try discriminate. auto.
  - destruct T as [T1 T2]. exists q. split; [exact I|]. split; [apply SP, E|]. unfold flags_of. rewrite T1, T2. reflexivity.
Qed.

Lemma add_elements_spec form d : alternatives_of form d (add_elements form d []) /\ NoDup (map el_ident (add_elements form d [])).
Proof.
  destruct (add_elements_core form d [] [] []) as (l & Fi & Fc & ND); [constructor|intros p []|intros p []|constructor|].
  cbn [app] in *. split.
  - exists l. split; [exact Fi|]. clear -Fc. induction Fc; constructor; [apply core_represents; assumption|assumption].
  - replace (map el_ident (add_elements form d [])) with (map (fun p => ti_property (fst p)) l); [exact ND|].
    clear -Fc. induction Fc as [|p e l es C F IH]; cbn; [reflexivity|]. destruct C as (-> & _). f_equal. exact IH.
Qed.

(** ** The pass *)

Lemma content_name_eq n : content_name n = (Generated (("Content" ++ NameModel.show_id n)%string), S n).
Proof. reflexivity. Qed.

Lemma unused_lookup ts n ns : unused_names ts n -> lookup (content_ident ns (fst (content_name n))) ts = None.
Proof.
  intros U. apply lookup_none. intros I. apply (U n _ (le_n _) I). reflexivity.
Qed.

Definition dyn (ts : types) (i : tident) (ty : mtype) (dm : dynamic_meta) : Prop := lookup i ts = Some ty /\ m_variant ty = VDynamic dm.

Lemma convert_one o n i ty dm : unused_names (o_types o) n -> dyn (o_types o) i ty dm ->
  exists o', convert_dynamic o n i = Ok (o', S n) /\
    let c := content_ident (ti_ns i) (fst (content_name n)) in
    c <> i /\ unused_names (o_types o') (S n) /\ chosen (o_types o) (o_types o') i ty dm c /\
    (forall j, j <> i -> j <> c -> lookup j (o_types o') = lookup j (o_types o)) /\
    map fst (o_types o') = map fst (o_types o) ++ [c].
Proof.
  intros U [L V]. unfold convert_dynamic. rewrite L, V, content_name_eq. cbn [fst].
  set (c := content_ident (ti_ns i) (Generated _)). set (es := add_elements _ _ _). set (cx := VComplex _).
  assert (Lc : lookup c (o_types o) = None) by exact (unused_lookup _ n (ti_ns i) U).
  assert (Ls : lookup c (set_type i cx (o_types o)) = None).
  { rewrite lookup_set, Lc. destruct (tident_eq_dec i c); reflexivity. }
  rewrite Ls. eexists. split; [reflexivity|]. cbn zeta.
  assert (D : c <> i) by (intros E; congruence).
  split; [exact D|]. unfold with_types; cbn [o_types]. split; [|split; [|split]].
  - intros m j H I. rewrite map_fst_snoc, set_keys, in_app_iff in I. cbn in I. destruct I as [I|[<-|[]]].
    + apply U; [lia|exact I].
    + unfold c, content_ident. cbn. intros E. injection E as E. apply NameProofs.show_id_inj in E. lia.
  - unfold chosen. rewrite !lookup_snoc, !lookup_set. destruct (tident_eq_dec i i); [|congruence]. rewrite L. cbn [option_map].
    split; [reflexivity|]. split; [exact Lc|]. exists (mtype_new (match es with [] => VSequence (GroupMeta false es) | _ => VChoice (GroupMeta false es) end)), es.
    split; [|split].
    + destruct (tident_eq_dec i c); [congruence|]. rewrite Lc. destruct (tident_eq_dec c c); [reflexivity|congruence].
    + apply add_elements_spec.
    + destruct es; reflexivity.
  - intros j Ni Nc. rewrite lookup_snoc, lookup_set. destruct (tident_eq_dec i j); [congruence|].
    destruct (lookup j (o_types o)); [reflexivity|]. destruct (tident_eq_dec j c); [congruence|reflexivity].
  - rewrite map_fst_snoc, set_keys. reflexivity.
Qed.

Lemma dynamic_idents_in ts i : NoDup (map fst ts) -> In i (dynamic_idents ts) <-> exists ty dm, dyn ts i ty dm.
Proof.
  intros ND. unfold dynamic_idents. rewrite in_map_iff. split.
  - intros ([j ty] & <- & H). apply filter_In in H. destruct H as [H E]. cbn in *. destruct (m_variant ty) as [| | | | |dm| | | | |] eqn:V; try discriminate.
    exists ty, dm. split; [apply lookup_unique; assumption|exact V].
  - intros (ty & dm & L & V). exists (i, ty). split; [reflexivity|]. apply filter_In. split; [apply lookup_in; exact L|]. cbn. rewrite V. reflexivity.
Qed.

(** The state after the types [done] have been converted. *)
Record converted (ts : types) (o : optimizer) (n : nat) (done : list tident) : Prop := Converted {
  cv_unused : unused_names (o_types o) n;
  cv_keep : forall j ty, lookup j ts = Some ty -> ~ In j done -> lookup j (o_types o) = Some ty;
  cv_old : forall j, lookup j ts <> None -> lookup j (o_types o) <> None;
  cv_new : forall j ty dm, lookup j ts = None -> lookup j (o_types o) = Some ty -> m_variant ty <> VDynamic dm;
  cv_done : exists cs, length cs = length done /\ NoDup cs /\ (forall c, In c cs -> lookup c ts = None) /\
    Forall2 (fun i c => exists ty dm, dyn ts i ty dm /\ chosen ts (o_types o) i ty dm c) done cs }.

Lemma nodup_dynamic ts : NoDup (map fst ts) -> NoDup (dynamic_idents ts).
Proof. intros ND. apply nodup_filter. exact ND. Qed.

Lemma chosen_frame ts o o' i ty dm c : chosen ts o i ty dm c -> (forall j, j = i \/ j = c -> lookup j o' = lookup j o) -> chosen ts o' i ty dm c.
Proof.
  intros (A & B & tc & es & C & D & E) F. split; [rewrite F; auto|]. split; [exact B|]. exists tc, es. rewrite F; auto.
Qed.

Lemma converts_ok ts ids : forall done o n, converted ts o n done -> NoDup (done ++ ids) ->
  (forall i, In i ids -> exists ty dm, dyn ts i ty dm) ->
  exists o' n', fold_left (fun acc i => match acc with Ok (o, n) => match convert_dynamic o n i with Err _ => Ok (o, n) | r => r end | r => r end)
    ids (Ok (o, n)) = Ok (o', n') /\ converted ts o' n' (done ++ ids).
Proof.
  induction ids as [|i ids IH]; intros done o n C ND Dy; cbn.
  - exists o, n. rewrite app_nil_r. auto.
  - destruct (Dy i (or_introl eq_refl)) as (ty & dm & L & V).
    assert (NI : ~ In i done).
    { intros I. apply NoDup_remove_2 in ND. apply ND. apply in_app_iff. auto. }
    assert (Li : dyn (o_types o) i ty dm) by (split; [apply (cv_keep _ _ _ _ C); assumption|exact V]).
    destruct (convert_one o n i ty dm (cv_unused _ _ _ _ C) Li) as (o1 & E & Nc & U & Ch & Fr & Ks).
    rewrite E. set (c := content_ident (ti_ns i) (fst (content_name n))) in *.
    assert (Lc : lookup c (o_types o) = None) by (destruct Ch as (_ & X & _); exact X).
    assert (Lt : lookup c ts = None).
    { destruct (lookup c ts) eqn:Q; [|reflexivity]. exfalso. apply (cv_old _ _ _ _ C c); [congruence|exact Lc]. }
    destruct (IH (done ++ [i]) o1 (S n)) as (o' & n' & F & C').
    + constructor.
      * exact U.
      * intros j tj Lj Nj. rewrite Fr; [apply (cv_keep _ _ _ _ C); [exact Lj|]|intros ->|intros ->].
        -- intros X. apply Nj. apply in_app_iff. auto.
        -- apply Nj. apply in_app_iff. right. left. reflexivity.
        -- congruence.
      * intros j Lj X. pose proof (cv_old _ _ _ _ C j Lj) as Y. apply lookup_none in X. apply X. rewrite Ks. apply in_app_iff. left.
        destruct (lookup j (o_types o)) eqn:Q; [|congruence]. eapply lookup_key; exact Q.
      * intros j tj dj Lj Lj' Vj. destruct (tident_eq_dec j c) as [->|Dc].
        -- destruct Ch as (_ & _ & tc & es & X & _ & Y). assert (tj = tc) by congruence. subst. rewrite Y in Vj. destruct es; discriminate.
        -- destruct (tident_eq_dec j i) as [->|Di]; [congruence|]. rewrite Fr in Lj' by assumption. exact (cv_new _ _ _ _ C _ _ _ Lj Lj' Vj).
      * destruct (cv_done _ _ _ _ C) as (cs & Len & NDc & Fresh & F2). exists (cs ++ [c]). split; [rewrite !app_length, Len; reflexivity|].
        assert (NIc : ~ In c cs).
        { intros I. assert (X : exists j tj dj, dyn ts j tj dj /\ chosen ts (o_types o) j tj dj c).
          { clear -F2 I. induction F2 as [|j c' d cs (tj & dj & A & B) F2 IH]; [destruct I|]. destruct I as [->|I]; [exists j, tj, dj; auto|apply IH, I]. }
          destruct X as (j & tj & dj & _ & _ & _ & tc & es & X & _). congruence. }
        split; [apply nodup_snoc; assumption|]. split.
        -- intros x. rewrite in_app_iff. intros [I|[<-|[]]]; [auto|exact Lt].
        -- apply Forall2_app.
           ++ assert (NIi : forall j, In j done -> j <> i) by (intros j I ->; contradiction).
              assert (NCc : forall x, In x cs -> x <> c /\ x <> i).
              { intros x I. split; [intros ->; contradiction|]. intros ->. specialize (Fresh _ I). congruence. }
              assert (NDc' : forall j, In j done -> j <> c).
              { intros j I ->. clear -F2 I Lt. induction F2 as [|j c' d cs (tj & dj & A & B) F2 IH]; [destruct I|].
                destruct I as [->|I]; [destruct A; congruence|apply IH; assumption]. }
              clear -F2 Fr NIi NCc NDc'. induction F2 as [|j c' d cs (tj & dj & A & B) F2 IH]; constructor.
              ** exists tj, dj. split; [exact A|]. eapply chosen_frame; [exact B|]. intros x [->| ->]; apply Fr.
                 --- apply NIi. left. reflexivity.
                 --- apply NDc'. left. reflexivity.
                 --- apply NCc. left. reflexivity.
                 --- apply NCc. left. reflexivity.
              ** apply IH; [intros; apply NIi; right; assumption|intros; apply NCc; right; assumption|intros; apply NDc'; right; assumption].
           ++ constructor; [|constructor]. exists ty, dm. split; [split; assumption|].
              destruct Ch as (A & _ & B). split; [exact A|]. split; [exact Lt|exact B].
    + rewrite <- app_assoc. exact ND.
    + intros j I. apply Dy. right. exact I.
    + exists o', n'. split; [exact F|]. rewrite <- app_assoc in C'. exact C'.
Qed.

Lemma convert_all o n : NoDup (map fst (o_types o)) -> unused_names (o_types o) n ->
  exists o' n', convert_dynamics o n = Ok (o', n') /\
    (forall i ty dm, lookup i (o_types o') = Some ty -> m_variant ty <> VDynamic dm) /\
    (forall i ty, lookup i (o_types o) = Some ty -> (forall dm, m_variant ty <> VDynamic dm) -> lookup i (o_types o') = Some ty) /\
    exists cs, NoDup cs /\ Forall2 (fun i c => exists ty dm, lookup i (o_types o) = Some ty /\ m_variant ty = VDynamic dm /\
      chosen (o_types o) (o_types o') i ty dm c) (dynamic_idents (o_types o)) cs.
Proof.
  intros ND U. destruct (converts_ok (o_types o) (dynamic_idents (o_types o)) [] o n) as (o' & n' & E & C).
  - constructor; [exact U|auto|auto| |].
    + intros j ty dm A B. congruence.
    + exists []. repeat split; [constructor|intros c []|constructor].
  - apply nodup_dynamic. exact ND.
  - intros i I. apply dynamic_idents_in; assumption.
  - exists o', n'. split; [exact E|]. cbn [app] in C. destruct C as [_ K O N (cs & Len & NDc & Fresh & F2)]. split; [|split].
    + intros i ty dm L V. destruct (lookup i (o_types o)) as [t|] eqn:Q; [|exact (N _ _ _ Q L V)].
      destruct (in_dec tident_eq_dec i (dynamic_idents (o_types o))) as [I|I].
      * assert (X : exists c t0 d0, chosen (o_types o) (o_types o') i t0 d0 c).
        { clear -F2 I. induction F2 as [|j c' d cs (tj & dj & A & B) F2 IH]; [destruct I|]. destruct I as [->|I]; [exists c', tj, dj; auto|apply IH, I]. }
        destruct X as (c & t0 & d0 & A & _). assert (ty = set_variant t0 (VComplex (ComplexMeta BaseNone (Some c) 1 (Bounded 1) true false []))) by congruence.
        subst. discriminate.
      * rewrite (K _ _ Q I) in L. injection L as <-. apply I. apply dynamic_idents_in; [exact ND|]. exists t, dm. split; assumption.
    + intros i ty L NV. apply K; [exact L|]. intros I. apply dynamic_idents_in in I; [|exact ND]. destruct I as (t & dm & Lt & V).
      assert (t = ty) by congruence. subst. exact (NV _ V).
    + exists cs. split; [exact NDc|]. clear -F2. induction F2 as [|j c' d cs (tj & dj & [A1 A2] & B) F2 IH]; constructor; [|exact IH].
      exists tj, dj. auto.
Qed.

(** If all names differ, no entry is lost. *)
Lemma firsts_all {A} (same : A -> A -> Prop) (key : A -> pident) (d : list A) : (forall a b, same a b -> key a = key b) ->
  forall before l, NoDup (map key (before ++ d)) -> firsts same before d l -> l = d.
Proof.
  intros K. intros before l ND F. induction F as [b|b a d l N F IH|b a d l x I S F IH]; [reflexivity| |].
  - f_equal. apply IH. rewrite <- app_assoc. exact ND.
  - exfalso. rewrite map_app in ND. cbn in ND. apply NoDup_remove_2 in ND. apply ND. apply in_app_iff. left.
    rewrite (K _ _ S). apply in_map. exact I.
Qed.
Lemma alternatives_all form d es : NoDup (map (fun p => (ti_ns (fst p), ti_name (fst p))) d) -> alternatives_of form d es ->
  Forall2 (represents form d) d es.
Proof.
  intros ND (l & F & R). assert (E : l = d).
  { eapply (firsts_all same_property (fun p => ti_property (fst p))); [|cbn|exact F].
    - intros a b S. apply prop_eq. exact S.
    - clear -ND. induction d as [|p d IH]; cbn in *; [constructor|]. inversion ND as [|? ? A B]; subst. constructor; [|apply IH, B].
      intros I. apply A. apply in_map_iff in I. destruct I as (q & E & I). apply in_map_iff. exists q. split; [|exact I].
      unfold ti_property in E. injection E as -> ->. reflexivity. }
  subst. exact R.
Qed.
