From Verif Require NameModel.
From Verif Require Import MetaModel MetaSpec MetaProofs DupModel DupProofs OptModel OptSpec OptProofs UnionModel UnionProofs
  FlatModel FlatProofs PassModel.

(** * The cache over any sequence of passes *)

(** The pass keeps the type definitions and the cache of them. *)
Record keeps (o o' : optimizer) : Prop := Keeps {
  kp_nodup : NoDup (map fst (o_types o)) -> NoDup (map fst (o_types o'));
  kp_cache : o_typedefs o' = o_typedefs o;
  kp_steps : forall a b, plain_step (o_types o') a b <-> plain_step (o_types o) a b }.

Lemma keeps_refl o : keeps o o.
Proof. constructor; auto. intros; tauto. Qed.
Lemma keeps_trans a b c : keeps a b -> keeps b c -> keeps a c.
Proof.
  intros [A1 A2 A3] [B1 B2 B3]. constructor; [auto|congruence|]. intros x y. rewrite B3. apply A3.
Qed.
Lemma keeps_ok o o' : keeps o o' -> cache_ok o -> cache_ok o'.
Proof.
  intros [_ C S]. unfold cache_ok. rewrite C. destruct (o_typedefs o) as [m|]; [|auto].
  intros H i e. rewrite (same_steps_end _ _ S). apply H.
Qed.

Definition not_plain (ts : types) (i : tident) : Prop := forall ty, lookup i ts = Some ty -> plain_ref (m_variant ty) = None.

Lemma set_steps ts i v : not_plain ts i -> plain_ref v = None -> forall a b, plain_step (set_type i v ts) a b <-> plain_step ts a b.
Proof.
  intros N V a b. rewrite !step_iff, lookup_set. destruct (tident_eq_dec i a) as [<-|D]; [|tauto].
  split.
  - intros (ty & L & P). destruct (lookup i ts) as [t|] eqn:E; [|discriminate]. cbn in L. injection L as <-. cbn in P. congruence.
  - intros (ty & L & P). specialize (N _ L). congruence.
Qed.
Lemma set_keeps o i v : not_plain (o_types o) i -> plain_ref v = None -> keeps o (with_types o (set_type i v (o_types o))).
Proof.
  intros N V. constructor; cbn.
  - rewrite set_keys. auto.
  - reflexivity.
  - apply set_steps; assumption.
Qed.
Lemma variant_not_plain ts i v : get_variant ts i = Some v -> plain_ref v = None -> not_plain ts i.
Proof. unfold get_variant, not_plain. destruct (lookup i ts); cbn; [|discriminate]. intros [= <-] P ty [= <-]. exact P. Qed.
Lemma set_not_plain ts i v j : not_plain ts j -> plain_ref v = None -> not_plain (set_type i v ts) j.
Proof.
  intros N V ty. rewrite lookup_set. destruct (tident_eq_dec i j); [|apply N]. destruct (lookup j ts); cbn; [|discriminate].
  intros [= <-]. exact V.
Qed.

(** ** Passes over single types *)

Lemma merge_dynamic_keeps fuel o i o' : merge_dynamic_type fuel o i = Some (Ok o') -> keeps o o'.
Proof.
  unfold merge_dynamic_type. destruct (get_variant (o_types o) i) as [v|] eqn:G; [|discriminate].
  destruct v; try discriminate. destruct (match dy_type x with Some t => _ | None => _ end) as [base|]; [|intros [= <-]; apply keeps_refl].
  destruct (add_derived_types _ _ _ _ _); [|discriminate]. intros [= <-].
  apply set_keeps; [eapply variant_not_plain; [exact G|reflexivity]|reflexivity].
Qed.

Lemma map_fst_snoc {V} (l : list (tident * V)) p : map fst (l ++ [p]) = map fst l ++ [fst p].
Proof. rewrite map_app. reflexivity. Qed.
Lemma nodup_snoc {A} (l : list A) a : NoDup l -> ~ In a l -> NoDup (l ++ [a]).
Proof.
  intros N H. apply NoDup_remove in N || idtac. induction l as [|b l IH]; cbn; [repeat constructor; auto|].
  inversion N as [|? ? A1 A2]; subst. constructor.
  - rewrite in_app_iff. cbn. intros [X|[<-|[]]]; [auto|]. apply H. left. reflexivity.
  - apply IH; [exact A2|]. intros X. apply H. right. exact X.
Qed.
Lemma lookup_none_key {V} i (l : list (tident * V)) : lookup i l = None -> ~ In i (map fst l).
Proof.
  induction l as [|[j v] l IH]; cbn; [auto|]. destruct (tident_eq_dec i j); [discriminate|]. intros H [X|X]; [congruence|].
  exact (IH H X).
Qed.
Lemma convert_keeps o n i r : convert_dynamic o n i = Ok r -> keeps o (fst r).
Proof.
  unfold convert_dynamic. destruct (lookup i (o_types o)) as [ty|] eqn:L; [|discriminate].
  destruct (m_variant ty) eqn:V; try discriminate. destruct (content_name n) as [nm n'].
  set (c := content_ident (ti_ns i) nm). set (es := add_elements _ _ _).
  set (cx := VComplex _). destruct (lookup c (set_type i cx (o_types o))) eqn:Lc; [discriminate|]. intros [= <-]. cbn [fst].
  assert (NP : not_plain (o_types o) i) by (intros t Lt; assert (t = ty) by congruence; subst; rewrite V; reflexivity).
  constructor; cbn.
  - intros ND. rewrite map_fst_snoc. apply nodup_snoc; [rewrite set_keys; exact ND|]. apply lookup_none_key. exact Lc.
  - reflexivity.
  - intros a b. rewrite <- (set_steps _ i cx NP eq_refl a b). rewrite !step_iff, lookup_snoc.
    destruct (lookup a (set_type i cx (o_types o))) as [t|] eqn:La; [tauto|].
    destruct (tident_eq_dec a c) as [->|D]; [|tauto].
    split; intros (t & Lt & P); [|discriminate]. injection Lt as <-. destruct es; discriminate P.
Qed.

Lemma group_plain v m g : group_of v = Some (m, g) -> plain_ref v = None.
Proof. destruct v; cbn; try discriminate; reflexivity. Qed.
Lemma group_lookup_plain ts i ty m g : lookup i ts = Some ty -> group_of (m_variant ty) = Some (m, g) -> not_plain ts i.
Proof. intros L G t Lt. assert (t = ty) by congruence. subst. eapply group_plain; exact G. Qed.

Lemma set_entry_keys i ty ts : map fst (set_entry i ty ts) = map fst ts.
Proof. unfold set_entry. rewrite map_map. apply map_ext. intros p. destruct (tident_eq_dec i (fst p)); reflexivity. Qed.
Lemma entry_steps ts i ty : not_plain ts i -> plain_ref (m_variant ty) = None ->
  forall a b, plain_step (set_entry i ty ts) a b <-> plain_step ts a b.
Proof.
  intros N V a b. rewrite !step_iff, lookup_entry. destruct (tident_eq_dec i a) as [<-|D]; [|tauto]. split.
  - intros (t & L & P). destruct (lookup i ts) as [t'|] eqn:E; [|discriminate]. cbn in L. injection L as <-. congruence.
  - intros (t & L & P). specialize (N _ L). congruence.
Qed.
Lemma entry_not_plain ts i ty j : not_plain ts j -> plain_ref (m_variant ty) = None -> not_plain (set_entry i ty ts) j.
Proof.
  intros N V t. rewrite lookup_entry. destruct (tident_eq_dec i j); [|apply N]. destruct (lookup j ts); cbn; [|discriminate].
  intros [= <-]. exact V.
Qed.

Lemma into_variant_plain b occ v : into_variant b = Some (occ, v) -> plain_ref v = None.
Proof.
  unfold into_variant. destruct (b_meta_new b) as [g|]; [|discriminate]. destruct (b_new b); intros [= _ <-]; reflexivity.
Qed.
Lemma exec_group fuel ts c b : flat_exec fuel ts c = Some (Ok b) -> not_plain ts c.
Proof.
  destruct fuel as [|fuel]; cbn; [discriminate|]. destruct (lookup c ts) as [ty|] eqn:L; [|discriminate].
  destruct (group_of (m_variant ty)) as [[m g]|] eqn:G; [|discriminate]. intros _. eapply group_lookup_plain; eassumption.
Qed.
Lemma flatten_complex_keeps fuel o i o' : flatten_complex_type fuel o i = Some (Ok o') -> keeps o o'.
Proof.
  unfold flatten_complex_type. destruct (lookup i (o_types o)) as [ty|] eqn:L; [|discriminate].
  destruct (m_variant ty) as [| | | | | | | | |x|] eqn:V; try discriminate. destruct (cx_content x) as [c|]; [|discriminate].
  destruct (flat_exec fuel (o_types o) c) as [[b| |]|] eqn:E; try discriminate.
  destruct (into_variant b) as [[occ v]|] eqn:Iv; [|intros [= <-]; apply keeps_refl].
  pose proof (exec_group _ _ _ _ E) as NC. pose proof (into_variant_plain _ _ _ Iv) as PV.
  assert (NI : not_plain (o_types o) i) by (intros t Lt; assert (t = ty) by congruence; subst; rewrite V; reflexivity).
  set (ts := set_entry c (mtype_new v) (o_types o)) in *.
  assert (K : keeps o (with_types o ts)).
  { constructor; cbn; [unfold ts; rewrite set_entry_keys; auto|reflexivity|]. apply entry_steps; assumption. }
  intros [= <-].
  destruct (get_variant ts i) as [[| | | | | | | | |x'|]|]; try exact K.
  eapply keeps_trans; [exact K|]. apply (set_keeps (with_types o ts)); [|reflexivity].
  apply entry_not_plain; assumption.
Qed.

Lemma flatten_union_keeps fuel o i o' : flatten_union fuel o i = Some (Ok o') -> keeps o o'.
Proof.
  unfold flatten_union. destruct (get_variant (o_types o) i) as [v|] eqn:G; [|discriminate]. destruct v; try discriminate.
  destruct (flatten_impl _ _ _ _ _) as [[n l]|]; [|discriminate]. intros [= <-]. destruct (Nat.ltb 1 n); [|apply keeps_refl].
  apply set_keeps; [eapply variant_not_plain; [exact G|reflexivity]|reflexivity].
Qed.
Lemma merge_enum_keeps fuel o i o' : merge_enum_union fuel o i = Some (Ok o') -> keeps o o'.
Proof.
  unfold merge_enum_union. destruct (get_variant (o_types o) i) as [v|] eqn:G; [|discriminate]. destruct v; try discriminate.
  destruct (merge_impl _ _ _ _ _) as [[m|]|]; [| |discriminate]; intros [= <-]; [|apply keeps_refl].
  apply set_keeps; [eapply variant_not_plain; [exact G|reflexivity]|]. destruct m; reflexivity.
Qed.
Lemma cardinality_keeps o i o' : merge_choice_cardinality o i = Ok o' -> keeps o o'.
Proof.
  unfold merge_choice_cardinality. destruct (get_variant (o_types o) i) as [v|] eqn:G; [|discriminate]. destruct v; try discriminate.
  destruct (cx_content x) as [c|]; [|discriminate]. destruct (get_variant (o_types o) c) as [vc|] eqn:Gc; [|discriminate].
  destruct vc; try discriminate. set (v := VChoice _).
  assert (K : keeps o (with_types o (set_type c v (o_types o)))).
  { apply set_keeps; [eapply variant_not_plain; [exact Gc|reflexivity]|reflexivity]. }
  destruct (get_variant (set_type c v (o_types o)) i) as [vi|] eqn:Gi; [|discriminate].
  destruct vi; try discriminate. intros [= <-]. eapply keeps_trans; [exact K|].
  apply (set_keeps (with_types o (set_type c v (o_types o)))); [|reflexivity].
  eapply variant_not_plain; [exact Gi|reflexivity].
Qed.
Lemma simplify_keeps o i o' : simplify_mixed_type o i = Ok o' -> keeps o o'.
Proof.
  unfold simplify_mixed_type. destruct (get_variant (o_types o) i) as [v|] eqn:G; [|discriminate]. destruct v; try discriminate.
  destruct (cx_content x) as [c|]; [|discriminate].
  assert (F : forall v r, not_plain (o_types o) c -> plain_ref v = None ->
    match get_variant (set_type c v (o_types o)) i with
    | Some (VComplex x') => Ok (with_types o (set_type i (VComplex (ComplexMeta (cx_base x') (cx_content x') (cx_min x') (cx_max x')
        (cx_dynamic x') false (cx_attrs x'))) (set_type c v (o_types o))))
    | _ => Ok (with_types o (set_type c v (o_types o)))
    end = @Ok pass_error _ r -> keeps o r).
  { intros v r N P H. assert (K : keeps o (with_types o (set_type c v (o_types o)))) by (apply set_keeps; assumption).
    destruct (get_variant (set_type c v (o_types o)) i) as [vi|] eqn:Gi; [|injection H as <-; exact K].
    destruct vi; injection H as <-; try exact K. eapply keeps_trans; [exact K|].
    apply (set_keeps (with_types o (set_type c v (o_types o)))); [|reflexivity].
    eapply variant_not_plain; [exact Gi|reflexivity]. }
  destruct (get_variant (o_types o) c) as [vc|] eqn:Gc; [|discriminate]. destruct vc; try discriminate.
  - destruct (cx_max x) as [|n]; [|discriminate]. intros H. refine (F _ _ _ _ H); [eapply variant_not_plain; [exact Gc|reflexivity]|reflexivity].
  - destruct (forallb _ _); [|discriminate]. intros H. refine (F _ _ _ _ H); [eapply variant_not_plain; [exact Gc|reflexivity]|reflexivity].
Qed.

(** ** Passes over all types *)

Lemma fold_opt_keeps {E} (f : optimizer -> tident -> option (outcome E optimizer)) (h : option (outcome E optimizer) -> option (outcome E optimizer)) ids :
  (forall o i o', f o i = Some (Ok o') -> keeps o o') ->
  (forall o i o', match f o i with Some (Err _) => h (Some (Ok o)) | r => r end = Some (Ok o') -> keeps o o') ->
  forall r0, (forall o, r0 = Some (Ok o) -> True) ->
  forall o0 o', r0 = Some (Ok o0) ->
  fold_left (fun acc i => match acc with
    | Some (Ok o) => match f o i with Some (Err _) => h (Some (Ok o)) | r => r end
    | r => r end) ids r0 = Some (Ok o') -> keeps o0 o'.
Proof.
  intros _ F. induction ids as [|i ids IH]; cbn; intros r0 _ o0 o' E0 H.
  - rewrite E0 in H. injection H as <-. apply keeps_refl.
  - rewrite E0 in H. destruct (match f o0 i with Some (Err _) => h (Some (Ok o0)) | r => r end) as [[o1| |]|] eqn:S.
    + eapply keeps_trans; [exact (F _ _ _ S)|]. eapply IH; [auto|reflexivity|exact H].
    + exfalso. clear -H. induction ids; cbn in H; [discriminate|auto].
    + exfalso. clear -H. induction ids; cbn in H; [discriminate|auto].
    + exfalso. clear -H. induction ids; cbn in H; [discriminate|auto].
Qed.

Lemma merge_dynamics_keeps fuel o o' : merge_dynamic_types fuel o = Some (Ok o') -> keeps o o'.
Proof.
  unfold merge_dynamic_types. intros H.
  eapply (fold_opt_keeps (merge_dynamic_type fuel) (fun r => r)); [| |auto|reflexivity|exact H].
  - apply merge_dynamic_keeps.
  - intros o1 i o2. destruct (merge_dynamic_type fuel o1 i) as [[x| |]|] eqn:E; intros X; try discriminate.
    + injection X as <-. eapply merge_dynamic_keeps; exact E.
    + injection X as <-. apply keeps_refl.
Qed.
Lemma flatten_complexes_keeps fuel o o' : flatten_complex_types fuel o = Some (Ok o') -> keeps o o'.
Proof.
  unfold flatten_complex_types. intros H.
  eapply (fold_opt_keeps (flatten_complex_type fuel) (fun r => r)); [| |auto|reflexivity|exact H].
  - apply flatten_complex_keeps.
  - intros o1 i o2. destruct (flatten_complex_type fuel o1 i) as [[x| |]|] eqn:E; intros X; try discriminate.
    + injection X as <-. eapply flatten_complex_keeps; exact E.
    + injection X as <-. apply keeps_refl.
Qed.
Lemma on_unions_keeps pass o o' : (forall o i o', pass o i = Some (Ok o') -> keeps o o') ->
  on_unions pass o = Some (Ok o') -> keeps o o'.
Proof.
  unfold on_unions. intros F H.
  eapply (fold_opt_keeps pass (fun _ => Some Panic)); [| |auto|reflexivity|exact H]; [exact F|].
  intros o1 i o2. destruct (pass o1 i) as [[x| |]|] eqn:E; intros X; try discriminate. injection X as <-. exact (F _ _ _ E).
Qed.
Lemma fold_out_keeps {E} (f : optimizer -> tident -> outcome E optimizer) ids : (forall o i o', f o i = Ok o' -> keeps o o') ->
  forall o o', fold_left (fun acc i => match acc with Ok o => match f o i with Err _ => Panic | r => r end | r => r end) ids (Ok o) = Ok o' ->
  keeps o o'.
Proof.
  intros F. induction ids as [|i ids IH]; cbn; intros o o' H; [injection H as <-; apply keeps_refl|].
  destruct (f o i) as [o1| |] eqn:S.
  - eapply keeps_trans; [exact (F _ _ _ S)|]. apply IH. exact H.
  - exfalso. clear -H. induction ids; cbn in H; [discriminate|auto].
  - exfalso. clear -H. induction ids; cbn in H; [discriminate|auto].
Qed.
Lemma converts_keeps ids : forall o n r,
  fold_left (fun acc i => match acc with Ok (o, n) => match convert_dynamic o n i with Err _ => Ok (o, n) | r => r end | r => r end)
    ids (Ok (o, n)) = Ok r -> keeps o (fst r).
Proof.
  induction ids as [|i ids IH]; cbn; intros o n r H; [injection H as <-; apply keeps_refl|].
  destruct (convert_dynamic o n i) as [[o1 n1]| |] eqn:S.
  - eapply keeps_trans; [exact (convert_keeps _ _ _ _ S)|]. exact (IH _ _ _ H).
  - exact (IH _ _ _ H).
  - exfalso. clear -H. induction ids; cbn in H; [discriminate|auto].
Qed.

(** ** Passes that use or reset the cache *)

Definition fine (o : optimizer) : Prop := NoDup (map fst (o_types o)) /\ cache_ok o.

Lemma keeps_fine o o' : keeps o o' -> fine o -> fine o'.
Proof. intros K [N C]. split; [apply K, N|eapply keeps_ok; eassumption]. Qed.

Lemma mapM_keys (F : tident * mtype -> option (tident * mtype)) ts : (forall p q, F p = Some q -> fst q = fst p) ->
  forall ts', mapM F ts = Some ts' -> map fst ts' = map fst ts.
Proof.
  intros H. induction ts as [|p ts IH]; cbn; intros ts' E; [injection E as <-; reflexivity|].
  destruct (F p) as [q|] eqn:Q; [|discriminate]. destruct (mapM F ts) as [l|]; [|discriminate]. injection E as <-. cbn.
  rewrite (IH l eq_refl), (H _ _ Q). reflexivity.
Qed.
Lemma mapM_lookup (F : variant -> option variant) ts : forall ts', mapM (fun p => option_map (with_type p) (F (m_variant (snd p)))) ts = Some ts' ->
  forall i, match lookup i ts with
            | Some ty => exists v, F (m_variant ty) = Some v /\ lookup i ts' = Some (set_variant ty v)
            | None => lookup i ts' = None
            end.
Proof.
  induction ts as [|[j ty] ts IH]; cbn; intros ts' E i; [injection E as <-; reflexivity|].
  destruct (F (m_variant ty)) as [v|] eqn:Q; [|discriminate]. cbn in E. destruct (mapM _ ts) as [l|]; [|discriminate].
  injection E as <-. cbn. destruct (tident_eq_dec i j) as [->|D]; [exists v; auto|]. apply IH. reflexivity.
Qed.

Lemma resolve_fine o o' : fine o -> resolve_typedefs o = Some o' -> fine o'.
Proof.
  intros [ND C] H. pose proof (got_faithful o ND C) as Fa.
  assert (R : resolves (o_types o) (get_typedefs o)).
  { unfold resolve_typedefs in H. destruct (mapM _ (o_types o)) as [ts'|] eqn:M; [|discriminate]. clear H.
    assert (P : forall i j, plain_step (o_types o) i j -> exists e, td_resolve (get_typedefs o) j = Some e).
    { intros i j S. apply step_iff in S. destruct S as (ty & L & P). pose proof (mapM_lookup _ _ _ M i) as X. rewrite L in X.
      destruct X as (v & E & _). destruct (m_variant ty) as [| | |x| | | | | | |]; try discriminate P.
      cbn [plain_ref] in P. unfold ref_simple in P. cbn [retarget] in E. destruct (ref_single x); cbn [andb] in P; [|discriminate].
      destruct (negb (rf_nillable x)); [|discriminate]. injection P as <-.
      destruct (td_resolve (get_typedefs o) (rf_type x)) as [e|]; [eauto|discriminate]. }
    assert (D : forall i, (exists j, plain_step (o_types o) i j) \/ ~ exists j, plain_step (o_types o) i j).
    { intros i. destruct (lookup i (o_types o)) as [ty|] eqn:L.
      - destruct (plain_ref (m_variant ty)) as [j|] eqn:Q.
        + left. exists j. apply step_iff. eauto.
        + right. intros (j & S). apply step_iff in S. destruct S as (t & Lt & Pt). congruence.
      - right. intros (j & S). apply step_iff in S. destruct S as (t & Lt & Pt). congruence. }
    intros i. destruct (D i) as [(j & S)|N].
    - destruct (P _ _ S) as (e & E). exists e. apply Fa in E. apply (end_step _ _ _ e S) in E. split; [exact E|]. apply Fa, E.
    - exists i. assert (A : alias_end (o_types o) i i).
      { split; [constructor|]. intros c S. apply N. eauto. }
      split; [exact A|]. apply Fa, A. }
  rewrite (resolve_eq o R) in H. injection H as <-. split; cbn; [rewrite mv_keys; exact ND|].
  intros i e. rewrite (moved_end _ _ R). apply Fa.
Qed.

Lemma dedup_plain f v v' : dedup_union f v = Some v' -> plain_ref v' = plain_ref v.
Proof. destruct v; cbn; try (intros [= <-]; reflexivity). destruct (dedup_members _ _ _); [|discriminate]. intros [= <-]. reflexivity. Qed.
Lemma dedup_fine o o' : fine o -> remove_duplicate_union_variants o = Some o' -> fine o'.
Proof.
  intros [ND C] H. unfold remove_duplicate_union_variants in H. destruct (mapM _ (o_types o)) as [ts'|] eqn:M; [|discriminate].
  injection H as <-. split; cbn.
  - erewrite mapM_keys; [exact ND| |exact M]. intros p q. cbn. destruct (dedup_union _ _); [|discriminate]. intros [= <-]. reflexivity.
  - intros i e. rewrite (same_steps_end (o_types o) ts'); [apply (got_faithful o ND C)|].
    intros a b. rewrite !step_iff. pose proof (mapM_lookup _ _ _ M a) as X. destruct (lookup a (o_types o)) as [ty|].
    + destruct X as (v & E & ->). apply dedup_plain in E. split; intros (t & Lt & P); injection Lt as <-; cbn in P.
      * exists ty. split; [reflexivity|]. congruence.
      * eexists. split; [reflexivity|]. cbn. congruence.
    + rewrite X. tauto.
Qed.

Lemma dup_keys fuel : forall ts ts', remove_duplicates fuel ts = Some ts' -> map fst ts' = map fst ts.
Proof.
  induction fuel as [|fuel IH]; cbn; intros ts ts'; [discriminate|]. destruct (dup_scan ts ts [] []) as [|p l]; [intros [= <-]; reflexivity|].
  intros H. rewrite (IH _ _ H). unfold dup_replace. rewrite map_map. reflexivity.
Qed.
Lemma duplicates_fine fuel o o' : fine o -> opt_remove_duplicates fuel o = Some o' -> fine o'.
Proof.
  intros [ND C] H. split; [|eapply dup_cache; eassumption]. unfold opt_remove_duplicates in H.
  destruct (remove_duplicates fuel (o_types o)) as [ts'|] eqn:E; [|discriminate]. injection H as <-. cbn.
  rewrite (dup_keys _ _ _ E). exact ND.
Qed.

Lemma unrestricted_fine fl o o' : fine o -> use_unrestricted_base_type fl o = Some o' -> fine o'.
Proof.
  intros [ND C] H. unfold use_unrestricted_base_type in H.
  destruct (mapM _ (o_types o)) as [l|] eqn:M; [|discriminate]. injection H as <-.
  assert (K : map fst l = o_types o).
  { clear -M. revert l M. generalize (get_bases o). intros m. induction (o_types o) as [|p ts IH]; cbn; intros l E; [injection E as <-; reflexivity|].
    destruct (unrestricted_type fl m p) as [r|]; [|discriminate]. cbn in E.
    destruct (mapM _ ts) as [l'|] eqn:Q; [|discriminate]. injection E as <-. cbn. f_equal. apply IH. reflexivity. }
  split; cbn.
  - rewrite map_map. replace (map _ l) with (map fst (map fst l)); [rewrite K; exact ND|].
    rewrite map_map. apply map_ext. intros [p [v|]]; reflexivity.
  - destruct (existsb (fun q => is_some (snd q)) l) eqn:X; [exact I|].
    apply cache_same; [exact C|]. replace (map _ l) with (o_types o); [tauto|].
    rewrite <- K. apply map_ext_in. intros [p r] Hp. cbn. destruct r as [v|]; [|reflexivity]. exfalso.
    assert (Y : existsb (fun q => is_some (snd q)) l = true) by (apply existsb_exists; exists (p, Some v); auto). congruence.
Qed.

Lemma replace_fine f o : fine o -> fine (replace_types f o).
Proof. intros [ND C]. split; [rewrite replace_keys_t; exact ND|apply replace_cache; exact C]. Qed.

Lemma any_fine modules include o : fine o -> not_plain (o_types o) (any_type_ident modules) -> fine (replace_xs_any_type modules include o).
Proof. intros F N. eapply keeps_fine; [|exact F]. apply set_keeps; [exact N|reflexivity]. Qed.

Lemma not_plain_step ts i : (forall c, ~ plain_step ts i c) -> not_plain ts i.
Proof.
  intros H ty L. destruct (plain_ref (m_variant ty)) as [c|] eqn:P; [|reflexivity]. exfalso. apply (H c). apply step_iff. eauto.
Qed.

Lemma ended_some {E A} (r : option (outcome E A)) a : ended r = Some a -> r = Some (Ok a).
Proof. destruct r as [[x| |]|]; cbn; try discriminate. intros [= <-]. reflexivity. Qed.
Lemma ok_some {E A} (r : outcome E A) a : ok r = Some a -> r = Ok a.
Proof. destruct r; cbn; try discriminate. intros [= <-]. reflexivity. Qed.

Lemma pass_fine modules fuel p s s' : fine (ps_opt s) ->
  (forall include, p = PReplaceAny include -> forall c, ~ plain_step (o_types (ps_opt s)) (any_type_ident modules) c) ->
  run_pass modules fuel p s = Some s' -> fine (ps_opt s').
Proof.
  intros F NA H. destruct p; cbn [run_pass] in H;
    try (match type of H with option_map _ ?r = Some _ => destruct r as [x|] eqn:E; [|discriminate] end;
         injection H as <-; cbn [ps_opt]); try (injection H as <-; cbn [ps_opt]).
  - eapply unrestricted_fine; eassumption.
  - apply any_fine; [exact F|]. apply not_plain_step. eapply NA. reflexivity.
  - split; [|apply drop_variants_cache, F]. unfold remove_empty_enum_variants. cbn. rewrite map_map. cbn. exact (proj1 F).
  - apply replace_fine, F.
  - eapply dedup_fine; eassumption.
  - apply replace_fine, F.
  - apply ended_some in E. eapply keeps_fine; [eapply merge_dynamic_keeps; exact E|exact F].
  - apply ended_some in E. eapply keeps_fine; [eapply merge_dynamics_keeps; exact E|exact F].
  - apply ok_some in E. eapply keeps_fine; [eapply convert_keeps; exact E|exact F].
  - apply ok_some in E. eapply keeps_fine; [eapply converts_keeps; exact E|exact F].
  - apply ended_some in E. eapply keeps_fine; [eapply flatten_complex_keeps; exact E|exact F].
  - apply ended_some in E. eapply keeps_fine; [eapply flatten_complexes_keeps; exact E|exact F].
  - apply ended_some in E. eapply keeps_fine; [eapply flatten_union_keeps; exact E|exact F].
  - apply ended_some in E. eapply keeps_fine; [eapply on_unions_keeps; [apply flatten_union_keeps|exact E]|exact F].
  - apply ended_some in E. eapply keeps_fine; [eapply merge_enum_keeps; exact E|exact F].
  - apply ended_some in E. eapply keeps_fine; [eapply on_unions_keeps; [apply merge_enum_keeps|exact E]|exact F].
  - eapply resolve_fine; eassumption.
  - eapply duplicates_fine; eassumption.
  - apply ok_some in E. eapply keeps_fine; [eapply cardinality_keeps; exact E|exact F].
  - apply ok_some in E. eapply keeps_fine; [eapply (fold_out_keeps merge_choice_cardinality); [apply cardinality_keeps|exact E]|exact F].
  - apply ok_some in E. eapply keeps_fine; [eapply simplify_keeps; exact E|exact F].
  - apply ok_some in E. eapply keeps_fine; [eapply (fold_out_keeps simplify_mixed_type); [apply simplify_keeps|exact E]|exact F].
Qed.

Lemma passes_fine modules fuel l : forall s s', fine (ps_opt s) ->
  (forall l1 include l2 s1, l = l1 ++ PReplaceAny include :: l2 -> run_passes modules fuel l1 s = Some s1 ->
     forall c, ~ plain_step (o_types (ps_opt s1)) (any_type_ident modules) c) ->
  run_passes modules fuel l s = Some s' -> fine (ps_opt s').
Proof.
  induction l as [|p l IH]; cbn; intros s s' F NA H; [injection H as <-; exact F|].
  destruct (run_pass modules fuel p s) as [s1|] eqn:E; [|discriminate].
  apply (IH s1 s').
  - eapply pass_fine; [exact F| |exact E]. intros include ->. eapply (NA [] include l s); reflexivity.
  - intros l1 include l2 s2 -> R. eapply (NA (p :: l1) include l2 s2); [reflexivity|]. cbn. rewrite E. exact R.
  - exact H.
Qed.
