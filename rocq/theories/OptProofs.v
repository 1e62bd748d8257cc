From Verif Require Import MetaModel MetaSpec MetaProofs DupModel DupProofs OptModel OptSpec.

(** ** Following a partial function *)

Section Run.
  Variable nxt : tident -> option tident.
  Fixpoint run (fuel : nat) (i : tident) : option tident :=
    match fuel with 0 => None | S fuel => match nxt i with None => Some i | Some x => run fuel x end end.

  Inductive chain : nat -> tident -> tident -> Prop :=
  | chain_end e : nxt e = None -> chain 0 e e
  | chain_step k i x e : nxt i = Some x -> chain k x e -> chain (S k) i e.

  Inductive reach : tident -> tident -> Prop :=
  | reach_refl i : reach i i
  | reach_step i j k : nxt i = Some j -> reach j k -> reach i k.

  Lemma chain_det k i e : chain k i e -> forall k' e', chain k' i e' -> k = k' /\ e = e'.
  Proof.
    induction 1 as [e N|k i x e N C IH]; intros k' e' H; inversion H; subst; try congruence; [auto|].
    assert (x0 = x) by congruence. subst. destruct (IH _ _ H1) as [-> ->]. auto.
  Qed.

  Lemma run_chain fuel : forall i e, run fuel i = Some e <-> exists k, k < fuel /\ chain k i e.
  Proof.
    induction fuel as [|fuel IH]; intros i e; cbn; [split; [discriminate|intros (k & H & _); lia]|].
    destruct (nxt i) as [x|] eqn:N.
    - rewrite IH. split; intros (k & L & C).
      + exists (S k). split; [lia|econstructor; eassumption].
      + inversion C; subst; [congruence|]. assert (x0 = x) by congruence. subst. exists k0. split; [lia|assumption].
    - split.
      + intros E. injection E as <-. exists 0. split; [lia|constructor; exact N].
      + intros (k & L & C). inversion C; subst; [reflexivity|congruence].
  Qed.

  Variable keys : list tident.
  Hypothesis in_keys : forall i j, nxt i = Some j -> In i keys.

  Lemma chain_nodes k i e : chain k i e -> exists l, length l = k /\ NoDup l /\ incl l keys /\
    forall x, In x l -> exists k', k' <= k /\ chain k' x e.
  Proof.
    induction 1 as [e N|k i x e N C IH].
    - exists []. repeat split; try constructor; cbn; try tauto. intros x [].
    - destruct IH as (l & L & D & I & F). exists (i :: l). cbn. split; [congruence|]. split; [|split].
      + constructor; [|exact D]. intros H. destruct (F _ H) as (k' & Lk & Ck).
        assert (Ci : chain (S k) i e) by (econstructor; eassumption).
        destruct (chain_det _ _ _ Ck _ _ Ci) as [E _]. lia.
      + intros y [<-|H]; [eapply in_keys; exact N|apply I, H].
      + intros y [<-|H]; [exists (S k); split; [lia|econstructor; eassumption]|].
        destruct (F _ H) as (k' & Lk & Ck). exists k'. split; [lia|exact Ck].
  Qed.

  (** More fuel does not help. *)
  Lemma run_enough fuel i e : run fuel i = Some e -> run (S (length keys)) i = Some e.
  Proof.
    rewrite !run_chain. intros (k & _ & C). exists k. split; [|exact C].
    destruct (chain_nodes _ _ _ C) as (l & L & D & I & _). pose proof (NoDup_incl_length D I). lia.
  Qed.

  (** Without loops the end is reached. *)
  Lemma reach_snoc i j k : reach i j -> nxt j = Some k -> reach i k.
  Proof. induction 1 as [i|i x j N R IH]; intros H; [econstructor; [exact H|constructor]|econstructor; [exact N|exact (IH H)]]. Qed.

  Lemma run_ends_aux : (forall i j, nxt i = Some j -> ~ reach j i) ->
    forall fuel visited i, NoDup visited -> incl visited keys ->
    (forall v, In v visited -> exists w, nxt v = Some w /\ reach w i) ->
    length keys < length visited + fuel -> run fuel i <> None.
  Proof.
    intros NL fuel. induction fuel as [|fuel IH]; intros visited i ND I V L.
    - pose proof (NoDup_incl_length ND I). lia.
    - cbn. destruct (nxt i) as [x|] eqn:N; [|discriminate]. apply (IH (i :: visited)).
      + constructor; [|exact ND]. intros H. destruct (V _ H) as (w & Nw & R). exact (NL _ _ Nw R).
      + intros y [<-|H]; [eapply in_keys; exact N|apply I, H].
      + intros v [<-|H]; [exists x; split; [exact N|constructor]|].
        destruct (V _ H) as (w & Nw & R). exists w. split; [exact Nw|]. eapply reach_snoc; eassumption.
      + cbn. lia.
  Qed.
  Lemma run_ends i : (forall i j, nxt i = Some j -> ~ reach j i) -> run (S (length keys)) i <> None.
  Proof.
    intros NL. apply run_ends_aux with (visited := []); [exact NL|constructor| | |cbn; lia].
    - intros x [].
    - intros v [].
  Qed.
End Run.

Lemma chain_reach nxt k i e : chain nxt k i e -> reach nxt i e /\ nxt e = None.
Proof.
  induction 1 as [e N|k i x e N C IH]; [split; [constructor|exact N]|]. destruct IH as [R E].
  split; [econstructor; eassumption|exact E].
Qed.
Lemma reach_chain nxt i e : reach nxt i e -> nxt e = None -> exists k, chain nxt k i e.
Proof.
  induction 1 as [i|i x e N R IH]; intros E; [exists 0; constructor; exact E|].
  destruct (IH E) as (k & C). exists (S k). econstructor; eassumption.
Qed.

Lemma td_run fuel m i : td_resolve_fuel fuel m i = run (fun i => lookup i m) fuel i.
Proof. revert i. induction fuel as [|fuel IH]; intros i; cbn; [reflexivity|]. destruct (lookup i m); [apply IH|reflexivity]. Qed.

Lemma lookup_key {V} i (m : list (tident * V)) v : lookup i m = Some v -> In i (map fst m).
Proof. intros H. apply lookup_in in H. apply (in_map fst) in H. exact H. Qed.

Lemma td_more fuel m i e : td_resolve_fuel fuel m i = Some e -> td_resolve m i = Some e.
Proof.
  unfold td_resolve. rewrite !td_run. intros H. rewrite <- (map_length fst m).
  eapply run_enough; [|exact H]. intros x y L. eapply lookup_key; exact L.
Qed.

(** ** The maps *)

Lemma entries_lookup {V} (F : mtype -> option V) (ts : types) i : NoDup (map fst ts) ->
  lookup i (flat_map (fun p => match F (snd p) with Some t => [(fst p, t)] | None => [] end) ts) =
  match lookup i ts with Some ty => F ty | None => None end.
Proof.
  induction ts as [|[j ty] ts IH]; cbn; intros ND; [reflexivity|]. inversion ND as [|? ? N ND']; subst.
  specialize (IH ND'). destruct (tident_eq_dec i j) as [->|D].
  - assert (L : lookup j ts = None) by (apply lookup_none; exact N). rewrite L in IH.
    destruct (F ty) as [t|] eqn:E; cbn; [destruct (tident_eq_dec j j); congruence|exact IH].
  - destruct (F ty) as [t|]; cbn; [destruct (tident_eq_dec i j); [congruence|exact IH]|exact IH].
Qed.

Lemma typedef_lookup ts i : NoDup (map fst ts) -> lookup i (typedef_map ts) =
  match lookup i ts with Some ty => plain_ref (m_variant ty) | None => None end.
Proof. intros ND. unfold typedef_map. rewrite <- (entries_lookup (fun ty => plain_ref (m_variant ty)) ts i ND). reflexivity. Qed.

Lemma typedef_step ts i j : NoDup (map fst ts) -> lookup i (typedef_map ts) = Some j <-> plain_step ts i j.
Proof.
  intros ND. rewrite typedef_lookup by exact ND. rewrite step_iff. split.
  - destruct (lookup i ts) as [ty|] eqn:E; [eauto|discriminate].
  - intros (ty & -> & P). exact P.
Qed.

Lemma reach_leads ts i j : NoDup (map fst ts) -> reach (fun i => lookup i (typedef_map ts)) i j <-> leads ts i j.
Proof.
  intros ND. split.
  - induction 1 as [i|i x j N R IH]; [constructor|]. econstructor; [apply typedef_step; eassumption|exact IH].
  - induction 1 as [i|i x j N R IH]; [constructor|]. econstructor; [apply typedef_step; eassumption|exact IH].
Qed.

(** ** The end of an alias *)

Lemma end_det ts i e e' : alias_end ts i e -> alias_end ts i e' -> e = e'.
Proof.
  intros [L N] [L' N']. induction L as [i|i x e S L IH].
  - inversion L'; subst; [reflexivity|]. exfalso. eapply N; eassumption.
  - inversion L' as [|? y ? S' L'']; subst; [exfalso; eapply N'; exact S|].
    apply IH; [exact N|]. rewrite (step_det _ _ _ _ S S'). exact L''.
Qed.

Lemma end_step ts i j e : plain_step ts i j -> alias_end ts i e <-> alias_end ts j e.
Proof.
  intros S. split; intros [L N].
  - split; [|exact N]. inversion L as [|? y ? S' L']; subst; [exfalso; eapply N; exact S|].
    rewrite (step_det _ _ _ _ S S'). exact L'.
  - split; [econstructor; eassumption|exact N].
Qed.

Definition resolves (ts : types) (m : list (tident * tident)) : Prop :=
  forall i, exists e, alias_end ts i e /\ td_resolve m i = Some e.

(** The map resolves an identifier exactly to the end of the alias. *)
Definition faithful (ts : types) (m : list (tident * tident)) : Prop :=
  forall i e, td_resolve m i = Some e <-> alias_end ts i e.

Lemma fresh_faithful ts : NoDup (map fst ts) -> faithful ts (typedef_map ts).
Proof.
  intros ND i e. split.
  - intros E. unfold td_resolve in E. rewrite td_run in E. apply run_chain in E.
    destruct E as (k & _ & C). apply chain_reach in C. destruct C as [R N]. split; [apply reach_leads; assumption|].
    intros c S. apply (typedef_step ts e c ND) in S. congruence.
  - intros [L N]. apply (reach_leads ts i e ND) in L.
    destruct (reach_chain _ _ _ L) as (k & C).
    { destruct (lookup e (typedef_map ts)) eqn:E; [|reflexivity]. apply (typedef_step ts e _ ND) in E. exfalso. eapply N; exact E. }
    apply td_more with (fuel := S k). rewrite td_run. apply run_chain. exists k. split; [lia|exact C].
Qed.

Lemma no_loops_end ts i : NoDup (map fst ts) -> no_loops ts -> exists e, alias_end ts i e.
Proof.
  intros ND NL. destruct (td_resolve (typedef_map ts) i) as [e|] eqn:E.
  - exists e. apply (fresh_faithful ts ND), E.
  - exfalso. unfold td_resolve in E. rewrite td_run in E. rewrite <- (map_length fst) in E. revert E.
    apply run_ends.
    + intros x y L. eapply lookup_key; exact L.
    + intros x y L R. apply (typedef_step ts x y ND) in L. apply (reach_leads ts y x ND) in R. exact (NL _ _ L R).
Qed.

Lemma got_faithful o : NoDup (map fst (o_types o)) -> cache_ok o -> faithful (o_types o) (get_typedefs o).
Proof.
  intros ND C. unfold get_typedefs, cache_ok in *. destruct (o_typedefs o); [exact C|]. apply fresh_faithful; assumption.
Qed.

Lemma got_resolves o : NoDup (map fst (o_types o)) -> no_loops (o_types o) -> cache_ok o ->
  resolves (o_types o) (get_typedefs o).
Proof.
  intros ND NL C i. destruct (no_loops_end _ i ND NL) as (e & A). exists e. split; [exact A|].
  apply (got_faithful o ND C), A.
Qed.

(** ** Traversals *)

Lemma mapM_spec {A B} (f : A -> option B) (R : A -> B -> Prop) l :
  (forall a, In a l -> exists b, f a = Some b /\ R a b) -> exists l', mapM f l = Some l' /\ Forall2 R l l'.
Proof.
  induction l as [|a l IH]; cbn; intros H; [exists []; auto|].
  destruct (H a) as (b & -> & Rb); [auto|]. destruct IH as (l' & -> & F); [auto|]. eauto.
Qed.

Lemma mapM_inv {A B} (f : A -> option B) l : forall l', mapM f l = Some l' -> Forall2 (fun a b => f a = Some b) l l'.
Proof.
  induction l as [|a l IH]; cbn; intros l' H; [injection H as <-; constructor|].
  destruct (f a) eqn:E; [|discriminate]. destruct (mapM f l); [|discriminate]. injection H as <-. constructor; auto.
Qed.

Lemma F2_flat {A B C} (R : A -> B -> Prop) (Q : C -> C -> Prop) (f : A -> list C) (g : B -> list C) l l' :
  Forall2 R l l' -> (forall a b, R a b -> Forall2 Q (f a) (g b)) -> Forall2 Q (flat_map f l) (flat_map g l').
Proof. induction 1; intros H'; cbn; [constructor|]. apply Forall2_app; auto. Qed.

Lemma F2_map_eq {A B C} (R : A -> B -> Prop) (f : A -> C) (g : B -> C) l l' :
  Forall2 R l l' -> (forall a b, R a b -> f a = g b) -> map f l = map g l'.
Proof. induction 1; intros H'; cbn; [reflexivity|]. f_equal; auto. Qed.

Lemma F2_map {A B C} (R : A -> B -> Prop) (Q : C -> C -> Prop) (f : A -> C) (g : B -> C) l l' :
  Forall2 R l l' -> (forall a b, R a b -> Q (f a) (g b)) -> Forall2 Q (map f l) (map g l').
Proof. induction 1; intros H'; cbn; constructor; auto. Qed.

Lemma F2_impl {A B} (R Q : A -> B -> Prop) l l' : (forall a b, R a b -> Q a b) -> Forall2 R l l' -> Forall2 Q l l'.
Proof. intros H. induction 1; constructor; auto. Qed.

(** ** One type *)

Section Retarget.
  Variable f : tident -> option tident.
  Variable g : tident -> tident.
  Hypothesis fg : forall i, f i = Some (g i).

  Definition moved (a b : tident) : Prop := b = a \/ b = g a.
  Definition img (b : tident) : Prop := exists a, b = g a.

  Lemma F_img l : Forall img (map g l).
  Proof. apply Forall_map. apply Forall_forall. intros x _. exists x. reflexivity. Qed.

  Lemma mapM_pure {A} (h : A -> option A) (h' : A -> A) l : (forall a, h a = Some (h' a)) -> mapM h l = Some (map h' l).
  Proof. intros H. induction l as [|a l IH]; cbn; [reflexivity|]. rewrite H, IH. reflexivity. Qed.

  Lemma pure_base b : retarget_base f b = Some (rename_base g b).
  Proof. destruct b; cbn; rewrite ?fg; reflexivity. Qed.
  Lemma pure_opt o : optM f o = Some (option_map g o).
  Proof. destruct o; cbn; rewrite ?fg; reflexivity. Qed.
  Lemma pure_utype u : retarget_utype f u = Some (rename_utype g u).
  Proof. unfold retarget_utype. rewrite fg. reflexivity. Qed.
  Lemma pure_evariant u : retarget_evariant f u = Some (rename_evariant g u).
  Proof. unfold retarget_evariant. rewrite pure_opt. reflexivity. Qed.
  Lemma pure_element u : retarget_element f u = Some (rename_element g u).
  Proof. destruct u as [? [] ? ? ? ? ? ?]; unfold retarget_element; cbn; rewrite ?fg; reflexivity. Qed.
  Lemma pure_attr u : retarget_attr f u = Some (rename_attr g u).
  Proof. destruct u as [? [] ? ? ? ? ? ?]; unfold retarget_attr; cbn; rewrite ?fg; reflexivity. Qed.
  Lemma pure_group u : retarget_group f u = Some (rename_group g u).
  Proof. unfold retarget_group. rewrite (mapM_pure _ (rename_element g)) by apply pure_element. reflexivity. Qed.
  Definition move_entry (e : tident * derived_meta) : tident * derived_meta :=
    (fst e, Derived (g (dt_type (snd e))) (dt_display (snd e)) (dt_rel (snd e))).
  Lemma pure_entry e : retarget_entry f e = Some (move_entry e).
  Proof. unfold retarget_entry. rewrite fg. reflexivity. Qed.

  (** What the traversal does, as a function. *)
  Definition move (v : variant) : variant :=
    match v with
    | VReference x => if ref_single x then rename g v else v
    | VDynamic x => VDynamic (DynMeta (option_map g (dy_type x)) (dy_abstract x) (map move_entry (dy_derived x)))
    | VSimple _ => v
    | _ => rename g v
    end.

  Lemma retarget_move v : retarget f v = Some (move v).
  Proof.
    destruct v as [x|x|x|x|x|x|x|x|x|x|x]; cbn; try reflexivity; rewrite ?pure_group; try reflexivity.
    - rewrite pure_base, (mapM_pure _ (rename_utype g)) by apply pure_utype. reflexivity.
    - rewrite fg. destruct (ref_single x); reflexivity.
    - rewrite pure_base, (mapM_pure _ (rename_evariant g)) by apply pure_evariant. reflexivity.
    - rewrite pure_opt, (mapM_pure _ move_entry) by apply pure_entry. reflexivity.
    - rewrite pure_base, pure_opt, (mapM_pure _ (rename_attr g)) by apply pure_attr. reflexivity.
  Qed.

  Lemma uses_rename v : uses (rename g v) = map g (uses v).
  Proof.
    assert (B : forall b, base_uses (rename_base g b) = map g (base_uses b)) by (intros []; reflexivity).
    assert (O : forall o, opt_uses (option_map g o) = map g (opt_uses o)) by (intros []; reflexivity).
    assert (G : forall x, group_uses (rename_group g x) = map g (group_uses x)).
    { intros [m l]. unfold group_uses. cbn. induction l as [|[? [] ? ? ? ? ? ?] l IH]; cbn in *; rewrite ?IH; reflexivity. }
    destruct v as [x|x|x|x|x|x|x|x|x|x|x]; cbn; try reflexivity; try apply G.
    - rewrite B, map_app, !map_map. reflexivity.
    - rewrite B, map_app. f_equal. induction (en_variants x) as [|e l IH]; cbn; [reflexivity|].
      rewrite map_app, IH, O. reflexivity.
    - rewrite O, map_app. f_equal. induction (dy_derived x) as [|e l IH]; cbn; [reflexivity|]. rewrite IH. reflexivity.
    - rewrite B, O, !map_app. do 2 f_equal. induction (cx_attrs x) as [|[? [] ? ? ? ? ? ?] l IH]; cbn in *; rewrite ?IH; reflexivity.
  Qed.

  Lemma F2_moved l : Forall2 moved l (map g l).
  Proof. induction l; cbn; constructor; [right; reflexivity|assumption]. Qed.
  Lemma F2_same l : Forall2 moved l l.
  Proof. induction l; constructor; [left; reflexivity|assumption]. Qed.

  Lemma move_uses v : Forall2 moved (uses v) (uses (move v)).
  Proof.
    destruct v as [x|x|x|x|x|x|x|x|x|x|x]; cbn [move]; try (rewrite uses_rename; apply F2_moved).
    - destruct (ref_single x); [rewrite uses_rename; apply F2_moved|apply F2_same].
    - cbn. apply Forall2_app.
      + destruct (dy_type x); cbn; [constructor; [right; reflexivity|constructor]|constructor].
      + induction (dy_derived x) as [|e l IH]; cbn; constructor; [left; reflexivity|].
        constructor; [right; reflexivity|exact IH].
    - apply F2_same.
  Qed.

  Lemma move_direct v : Forall img (direct_uses (move v)).
  Proof.
    destruct v as [x|x|x|x|x|x|x|x|x|x|x];
      try (change (direct_uses (move ?v)) with (uses (rename g v)); rewrite uses_rename; apply F_img).
    - cbn. destruct (ref_single x) eqn:E; cbn.
      + replace (ref_single _) with true by (symmetry; exact E). constructor; [exists (rf_type x); reflexivity|constructor].
      + rewrite E. constructor.
    - cbn. apply Forall_app. split.
      + destruct (dy_type x) as [t|]; cbn; repeat constructor. exists t. reflexivity.
      + rewrite map_map. apply Forall_map. apply Forall_forall. intros e _. exists (dt_type (snd e)). reflexivity.
    - constructor.
  Qed.

  Lemma move_erased v : erased (move v) = erased v.
  Proof.
    assert (R : forall v, erased (rename g v) = erased v) by (intros w; unfold erased; rewrite rename_comp; reflexivity).
    destruct v as [x|x|x|x|x|x|x|x|x|x|x]; cbn [move]; try apply R; try reflexivity.
    - destruct (ref_single x); [apply R|reflexivity].
    - unfold erased. cbn. do 2 f_equal.
      + destruct (dy_type x); reflexivity.
      + rewrite map_map. reflexivity.
  Qed.

  Lemma move_plain v : plain_ref (move v) = option_map g (plain_ref v).
  Proof.
    destruct v as [x|x|x|x|x|x|x|x|x|x|x]; try reflexivity. cbn.
    destruct (ref_single x) eqn:E; cbn; unfold ref_simple; cbn.
    - replace (ref_single _) with true by (symmetry; exact E). rewrite E. cbn. destruct (rf_nillable x); reflexivity.
    - rewrite E. cbn. reflexivity.
  Qed.
End Retarget.

(** ** Maps that differ in the variants only *)

Section Moved.
  Variable h : variant -> variant.
  Definition map_variants (ts : types) : types := map (fun p => with_type p (h (m_variant (snd p)))) ts.
  Lemma mv_keys ts : map fst (map_variants ts) = map fst ts.
  Proof. unfold map_variants. rewrite map_map. reflexivity. Qed.
  Lemma mv_lookup ts i : lookup i (map_variants ts) = option_map (fun ty => set_variant ty (h (m_variant ty))) (lookup i ts).
  Proof.
    induction ts as [|[j ty] ts IH]; cbn; [reflexivity|]. destruct (tident_eq_dec i j); [reflexivity|exact IH].
  Qed.
  Lemma mv_step ts i j : plain_step (map_variants ts) i j <->
    exists ty, lookup i ts = Some ty /\ plain_ref (h (m_variant ty)) = Some j.
  Proof.
    rewrite step_iff, mv_lookup. split.
    - intros (ty & L & P). destruct (lookup i ts) as [t|]; [|discriminate]. injection L as <-. eauto.
    - intros (ty & -> & P). cbn. eauto.
  Qed.
End Moved.

(** Passes that keep the plain references keep the ends of aliases and the cache. *)
Lemma same_steps_end ts ts' : (forall i j, plain_step ts' i j <-> plain_step ts i j) ->
  forall i e, alias_end ts' i e <-> alias_end ts i e.
Proof.
  intros H.
  assert (L : forall t t', (forall i j, plain_step t' i j <-> plain_step t i j) -> forall i e, leads t' i e -> leads t i e).
  { intros t t' H' i e. induction 1; [constructor|]. econstructor; [apply H'; eassumption|assumption]. }
  intros i e. split; intros [A B]; split.
  - eapply L; [|exact A]. exact H.
  - intros c S. apply H in S. eapply B; exact S.
  - eapply L; [|exact A]. intros x y. symmetry. apply H.
  - intros c S. apply H in S. eapply B; exact S.
Qed.

Lemma keep_plain_end h ts : (forall v, plain_ref (h v) = plain_ref v) ->
  forall i e, alias_end (map_variants h ts) i e <-> alias_end ts i e.
Proof.
  intros H. apply same_steps_end. intros i j. rewrite mv_step, step_iff.
  split; intros (ty & L & P); exists ty; rewrite H in *; auto.
Qed.

(** ** resolve_typedefs *)

Definition endf (m : list (tident * tident)) (i : tident) : tident :=
  match td_resolve m i with Some e => e | None => i end.

Lemma resolves_some ts m : resolves ts m -> forall i, td_resolve m i = Some (endf m i).
Proof. intros R i. unfold endf. destruct (R i) as (e & _ & ->). reflexivity. Qed.
Lemma resolves_end ts m : resolves ts m -> forall i, alias_end ts i (endf m i).
Proof. intros R i. unfold endf. destruct (R i) as (e & A & ->). exact A. Qed.

Lemma mapM_variants (F : variant -> option variant) (h : variant -> variant) ts : (forall v, F v = Some (h v)) ->
  mapM (fun p => option_map (with_type p) (F (m_variant (snd p)))) ts = Some (map_variants h ts).
Proof. intros H. induction ts as [|p ts IH]; cbn; [reflexivity|]. rewrite H, IH. reflexivity. Qed.

Lemma resolve_eq o : resolves (o_types o) (get_typedefs o) ->
  resolve_typedefs o =
  Some (Optimizer (map_variants (move (endf (get_typedefs o))) (o_types o)) (o_bases o) (Some (get_typedefs o))).
Proof.
  intros R. unfold resolve_typedefs. cbv zeta.
  rewrite (mapM_variants _ (move (endf (get_typedefs o)))); [reflexivity|].
  apply retarget_move. exact (resolves_some _ _ R).
Qed.

Lemma moved_end ts m : resolves ts m -> forall i e,
  alias_end (map_variants (move (endf m)) ts) i e <-> alias_end ts i e.
Proof.
  intros R.
  assert (S : forall i j, plain_step (map_variants (move (endf m)) ts) i j <-> exists b, plain_step ts i b /\ j = endf m b).
  { intros i j. rewrite mv_step. split.
    - intros (ty & L & P). rewrite move_plain in P. destruct (plain_ref (m_variant ty)) as [b|] eqn:E; [|discriminate].
      injection P as <-. exists b. split; [apply step_iff; eauto|reflexivity].
    - intros (b & St & ->). apply step_iff in St. destruct St as (ty & L & P). exists ty. split; [exact L|].
      rewrite move_plain, P. reflexivity. }
  assert (F : forall i e, alias_end ts i e -> alias_end (map_variants (move (endf m)) ts) i e).
  { intros i e A. pose proof A as [L N]. assert (N' : forall c, ~ plain_step (map_variants (move (endf m)) ts) e c).
    { intros c X. apply S in X. destruct X as (b & X & _). eapply N; exact X. }
    split; [|exact N']. inversion L as [|? b ? St L']; subst; [constructor|].
    econstructor; [apply S; exists b; split; [exact St|reflexivity]|].
    assert (E : endf m b = e).
    { eapply end_det; [apply (resolves_end _ _ R)|]. split; assumption. }
    rewrite E. constructor. }
  intros i e. split; [|apply F]. intros A.
  pose proof (resolves_end _ _ R i) as B. rewrite (end_det _ _ _ _ A (F _ _ B)). exact B.
Qed.

Lemma resolve_spec o : NoDup (map fst (o_types o)) -> no_loops (o_types o) -> cache_ok o ->
  exists o', resolve_typedefs o = Some o' /\ map fst (o_types o') = map fst (o_types o) /\ cache_ok o' /\
  (forall i e, alias_end (o_types o') i e <-> alias_end (o_types o) i e) /\
  forall i ty, lookup i (o_types o) = Some ty -> exists v', lookup i (o_types o') = Some (set_variant ty v') /\
    erased v' = erased (m_variant ty) /\
    Forall2 (fun a b => forall e, alias_end (o_types o) a e <-> alias_end (o_types o') b e) (uses (m_variant ty)) (uses v') /\
    forall b c, In b (direct_uses v') -> ~ plain_step (o_types o') b c.
Proof.
  intros ND NL C. pose proof (got_resolves o ND NL C) as R. rewrite (resolve_eq o R).
  set (m := get_typedefs o) in *. eexists. split; [reflexivity|]. cbn [o_types].
  split; [apply mv_keys|]. pose proof (moved_end _ _ R) as ME.
  split. { intros i e. rewrite ME. apply (got_faithful o ND C). }
  split; [exact ME|].
  intros i ty L. exists (move (endf m) (m_variant ty)). split; [rewrite mv_lookup, L; reflexivity|].
  split; [apply move_erased|]. split.
  - eapply F2_impl; [|apply move_uses]. intros a b Mv e. rewrite ME. destruct Mv as [->| ->]; [tauto|].
    pose proof (resolves_end _ _ R a) as A. assert (B : alias_end (o_types o) (endf m a) (endf m a)).
    { destruct A as [_ N]. split; [constructor|exact N]. }
    split; intros X; [rewrite (end_det _ _ _ _ X A)|rewrite (end_det _ _ _ _ X B)]; assumption.
  - intros b c I S. pose proof (move_direct (endf m) (m_variant ty)) as D. rewrite Forall_forall in D.
    destruct (D _ I) as (a & ->). pose proof (resolves_end _ _ R a) as A. apply ME in A. destruct A as [_ N].
    eapply N; exact S.
Qed.

(** ** Clean-up passes *)

Lemma kept_filter {A} (p : A -> bool) (P : A -> Prop) l : (forall a, p a = true <-> P a) -> kept P l (filter p l).
Proof.
  intros H. induction l as [|a l IH]; cbn; [constructor|]. destruct (p a) eqn:E.
  - constructor; [apply H, E|exact IH].
  - constructor; [intros X; apply H in X; congruence|exact IH].
Qed.

Lemma dedup_spec f g l : (forall i, f i = Some (g i)) -> forall before seen,
  (forall r, In r seen <-> In r (map (fun t => g (ut_type t)) before)) ->
  exists l', dedup_members f l seen = Some l' /\
    firsts (fun a b => g (ut_type a) = g (ut_type b)) before l l'.
Proof.
  intros fg. induction l as [|t l IH]; intros before seen S; cbn; [exists []; split; [reflexivity|constructor]|].
  rewrite fg. destruct (contains (g (ut_type t)) seen) eqn:C.
  - apply contains_in in C. apply S in C. apply in_map_iff in C. destruct C as (b & E & I).
    destruct (IH (before ++ [t]) seen) as (l' & -> & F).
    { intros r. rewrite map_app, in_app_iff. cbn. rewrite S. split; [auto|]. intros [H|[<-|[]]]; [exact H|].
      rewrite <- E. apply in_map_iff. exists b. auto. }
    exists l'. split; [reflexivity|]. eapply firsts_old; [exact I|symmetry; exact E|exact F].
  - destruct (IH (before ++ [t]) (g (ut_type t) :: seen)) as (l' & -> & F).
    { intros r. rewrite map_app, in_app_iff. cbn. rewrite S. tauto. }
    exists (t :: l'). split; [reflexivity|]. apply firsts_new; [|exact F].
    intros b I E. assert (X : In (g (ut_type t)) seen).
    { apply S. apply in_map_iff. exists b. auto. }
    apply contains_in in X. congruence.
Qed.

Lemma firsts_impl {A} (P Q : A -> A -> Prop) : (forall a b, P a b <-> Q a b) -> forall before l l',
  firsts P before l l' -> firsts Q before l l'.
Proof.
  intros H before l l'. induction 1.
  - constructor.
  - apply firsts_new; [|assumption]. intros b I S. apply H in S. eapply H0; eassumption.
  - eapply firsts_old; [eassumption|apply H; eassumption|assumption].
Qed.

Lemma cache_same o ts' b' : cache_ok o -> (forall i e, alias_end ts' i e <-> alias_end (o_types o) i e) ->
  cache_ok (Optimizer ts' b' (o_typedefs o)).
Proof.
  unfold cache_ok. cbn. destruct (o_typedefs o) as [m|]; [|auto]. intros C H i e. rewrite H. apply C.
Qed.

Definition dedup_v (m : list (tident * tident)) (v : variant) : variant :=
  match dedup_union (td_resolve m) v with Some v' => v' | None => v end.

Lemma dedup_variants_spec o : NoDup (map fst (o_types o)) -> no_loops (o_types o) -> cache_ok o ->
  exists o', remove_duplicate_union_variants o = Some o' /\ map fst (o_types o') = map fst (o_types o) /\ cache_ok o' /\
  (forall i e, alias_end (o_types o') i e <-> alias_end (o_types o) i e) /\
  forall i ty, lookup i (o_types o) = Some ty ->
    match m_variant ty with
    | VUnion x => exists l', lookup i (o_types o') = Some (set_variant ty (VUnion (UnionMeta (un_base x) l' (un_constrains x)))) /\
        firsts (fun a b => forall e, alias_end (o_types o) (ut_type a) e <-> alias_end (o_types o) (ut_type b) e) [] (un_types x) l'
    | _ => lookup i (o_types o') = Some ty
    end.
Proof.
  intros ND NL C. pose proof (got_resolves o ND NL C) as R. unfold remove_duplicate_union_variants. cbv zeta.
  set (m := get_typedefs o) in *.
  assert (DS : forall x, exists l', dedup_members (td_resolve m) (un_types x) [] = Some l' /\
    firsts (fun a b => endf m (ut_type a) = endf m (ut_type b)) [] (un_types x) l').
  { intros x. apply dedup_spec; [exact (resolves_some _ _ R)|]. cbn. tauto. }
  rewrite (mapM_variants _ (dedup_v m)).
  2:{ intros v. unfold dedup_v. destruct v as [x|x|x|x|x|x|x|x|x|x|x]; cbn; try reflexivity.
      destruct (DS x) as (l' & -> & _). reflexivity. }
  eexists. split; [reflexivity|]. cbn [o_types]. split; [apply mv_keys|].
  assert (ME : forall i e, alias_end (map_variants (dedup_v m) (o_types o)) i e <-> alias_end (o_types o) i e).
  { apply keep_plain_end. intros v. unfold dedup_v. destruct v as [x|x|x|x|x|x|x|x|x|x|x]; cbn; try reflexivity.
    destruct (DS x) as (l' & -> & _). reflexivity. }
  split. { intros i e. rewrite ME. apply (got_faithful o ND C). }
  split; [exact ME|]. intros i ty L. rewrite mv_lookup, L. cbn.
  destruct ty as [v fo sc di re doc]. cbn. destruct v as [x|x|x|x|x|x|x|x|x|x|x]; try reflexivity.
  destruct (DS x) as (l' & E & F). exists l'. unfold dedup_v. cbn. rewrite E. split; [reflexivity|].
  eapply firsts_impl; [|exact F]. intros a b. split.
  - intros Eq e. pose proof (resolves_end _ _ R (ut_type a)) as A. pose proof (resolves_end _ _ R (ut_type b)) as B.
    rewrite Eq in A. split; intros X; [rewrite (end_det _ _ _ _ X A)|rewrite (end_det _ _ _ _ X B)]; assumption.
  - intros H. eapply end_det; [|apply (resolves_end _ _ R)]. apply H. apply (resolves_end _ _ R).
Qed.

Lemma drop_variants_spec o i ty : lookup i (o_types o) = Some ty ->
  match m_variant ty with
  | VEnumeration x => exists l', lookup i (o_types (remove_empty_enum_variants o)) =
      Some (set_variant ty (VEnumeration (EnumMeta (en_base x) l' (en_constrains x)))) /\
      kept (fun e => pi_name (ev_ident e) <> Named "") (en_variants x) l'
  | _ => lookup i (o_types (remove_empty_enum_variants o)) = Some ty
  end.
Proof.
  intros L. unfold remove_empty_enum_variants. cbn [o_types]. fold (map_variants drop_empty_variants (o_types o)).
  rewrite mv_lookup, L. cbn. destruct ty as [v fo sc di re doc]. cbn.
  destruct v as [x|x|x|x|x|x|x|x|x|x|x]; try reflexivity.
  eexists. split; [reflexivity|]. apply kept_filter. intros e. unfold empty_name.
  destruct (pi_name (ev_ident e)) as [s|s]; cbn; [|split; [discriminate|reflexivity]].
  destruct (String.eqb_spec s "") as [->|N]; cbn; split; congruence.
Qed.
Lemma drop_variants_cache o : cache_ok o -> cache_ok (remove_empty_enum_variants o).
Proof.
  intros C. apply cache_same; [exact C|]. apply (keep_plain_end drop_empty_variants). intros []; reflexivity.
Qed.

Lemma replace_lookup_t f o i : lookup i (o_types (replace_types f o)) =
  option_map (fun ty => match f (m_variant ty) with Some v => set_variant ty v | None => ty end) (lookup i (o_types o)).
Proof.
  unfold replace_types. cbn. induction (o_types o) as [|[j ty] ts IH]; cbn; [reflexivity|].
  destruct (f (m_variant ty)) eqn:E; cbn; (destruct (tident_eq_dec i j); [cbn; rewrite E; reflexivity|exact IH]).
Qed.
Lemma replace_keys_t f o : map fst (o_types (replace_types f o)) = map fst (o_types o).
Proof. unfold replace_types. cbn. rewrite map_map. apply map_ext. intros p. destruct (f (m_variant (snd p))); reflexivity. Qed.
Lemma replace_cache f o : cache_ok o -> cache_ok (replace_types f o).
Proof.
  intros C. unfold replace_types. destruct (existsb _ _) eqn:E; [exact I|].
  apply cache_same; [exact C|]. intros i e.
  assert (X : map (fun p => match f (m_variant (snd p)) with Some v => with_type p v | None => p end) (o_types o) = o_types o).
  { rewrite <- (map_id (o_types o)) at 2. apply map_ext_in. intros p Hp. destruct (f (m_variant (snd p))) eqn:F; [|reflexivity].
    exfalso. assert (Y : existsb (fun p => is_some (f (m_variant (snd p)))) (o_types o) = true).
    { apply existsb_exists. exists p. rewrite F. auto. }
    congruence. }
  rewrite X. tauto.
Qed.

(** ** Unrestricted bases *)

Definition base_next (m : list (tident * base_meta)) (i : tident) : option tident :=
  match lookup i m with Some (BaseRes b) => Some b | _ => None end.
Lemma un_run fuel m i : unrestricted_fuel fuel m i = run (base_next m) fuel i.
Proof.
  revert i. induction fuel as [|fuel IH]; intros i; cbn; [reflexivity|]. unfold base_next at 1.
  destruct (lookup i m) as [[| |b]|]; try reflexivity. apply IH.
Qed.
Lemma base_step ts i j : NoDup (map fst ts) -> base_next (base_map ts) i = Some j <-> restricts ts i j.
Proof.
  intros ND. unfold base_next, base_map.
  rewrite (entries_lookup (fun ty => base_entry ts (m_variant ty)) ts i ND). unfold restricts. split.
  - destruct (lookup i ts) as [ty|] eqn:L; [|discriminate]. intros H. exists ty. split; [reflexivity|].
    destruct (m_variant ty) as [x|x|x|x|x|x|x|x|x|x|x]; cbn in H; try discriminate.
    all: unfold get_variant in H.
    4: { congruence. }
    all: match type of H with context [base_ident ?b] => destruct b as [|t|t] end; cbn in H; try discriminate.
    all: destruct (lookup t ts) as [tb|] eqn:Lt; cbn in H; try discriminate.
    all: destruct (m_variant tb) eqn:V; try discriminate H; injection H as <-; (split; [reflexivity|]); rewrite Lt; eauto.
  - intros (ty & L & H). rewrite L. destruct (m_variant ty) as [x|x|x|x|x|x|x|x|x|x|x]; cbn; try contradiction.
    4: { congruence. }
    all: destruct H as (E & tb & y & Lt & V); rewrite E; cbn; unfold get_variant; rewrite Lt; cbn; rewrite V; reflexivity.
Qed.
Lemma reach_restricts ts i j : NoDup (map fst ts) -> reach (base_next (base_map ts)) i j <-> restricts_all ts i j.
Proof.
  intros ND. split.
  - induction 1 as [i|i x j N R IH]; [constructor|]. econstructor; [apply base_step; eassumption|exact IH].
  - induction 1 as [i|i x j N R IH]; [constructor|]. econstructor; [apply base_step; eassumption|exact IH].
Qed.
Lemma unrestricted_spec ts i : NoDup (map fst ts) -> no_restriction_loops ts ->
  exists e, get_unrestricted (base_map ts) i = Some e /\ restricts_all ts i e /\ forall c, ~ restricts ts e c.
Proof.
  intros ND NL. unfold get_unrestricted. rewrite un_run.
  destruct (run (base_next (base_map ts)) (S (length (base_map ts))) i) as [e|] eqn:E.
  - exists e. split; [reflexivity|]. apply run_chain in E. destruct E as (k & _ & C). apply chain_reach in C. destruct C as [R N].
    split; [apply reach_restricts; assumption|]. intros c S. apply (base_step ts e c ND) in S. congruence.
  - exfalso. rewrite <- (map_length fst) in E. revert E. apply run_ends.
    + intros x y L. unfold base_next in L. destruct (lookup x (base_map ts)) eqn:Q; [|discriminate]. eapply lookup_key; exact Q.
    + intros x y L R. apply (base_step ts x y ND) in L. apply (reach_restricts ts y x ND) in R. exact (NL _ _ L R).
Qed.

Definition un_type (fl : base_flags) (m : list (tident * base_meta)) (p : tident * mtype) : option variant :=
  match unrestricted_type fl m p with Some o => o | None => None end.

Lemma use_unrestricted_spec fl o : NoDup (map fst (o_types o)) -> no_restriction_loops (o_types o) ->
  o_bases o = None -> cache_ok o ->
  exists o', use_unrestricted_base_type fl o = Some o' /\ map fst (o_types o') = map fst (o_types o) /\ cache_ok o' /\
  forall i ty, lookup i (o_types o) = Some ty -> exists e,
    restricts_all (o_types o) i e /\ (forall c, ~ restricts (o_types o) e c) /\
    lookup i (o_types o') =
      Some (if selected fl (m_variant ty) then
              if tident_eq_dec i e then ty else set_variant ty (VReference (RefMeta e false 1 (Bounded 1)))
            else ty).
Proof.
  intros ND NL B C. unfold use_unrestricted_base_type. cbv zeta. unfold get_bases. rewrite B.
  set (ts := o_types o) in *. remember (base_map ts) as m eqn:Hm.
  assert (T : forall p, unrestricted_type fl m p = Some (un_type fl m p)).
  { intros p. unfold un_type, unrestricted_type. destruct (selected fl (m_variant (snd p))); [|reflexivity].
    destruct (unrestricted_spec ts (fst p) ND NL) as (e & E & _). rewrite <- Hm in E. rewrite E. reflexivity. }
  assert (M : mapM (fun p => option_map (pair p) (unrestricted_type fl m p)) ts = Some (map (fun p => (p, un_type fl m p)) ts)).
  { generalize ts. clear -T. intros l. induction l as [|p l IH]; cbn; [reflexivity|]. rewrite T, IH. reflexivity. }
  rewrite M. eexists. split; [reflexivity|]. cbn [o_types].
  rewrite (map_map (fun p => (p, un_type fl m p))). cbn [fst snd].
  set (step := fun p => match un_type fl m p with Some v => with_type p v | None => p end).
  assert (K : forall p, fst (step p) = fst p) by (intros p; unfold step; destruct (un_type fl m p); reflexivity).
  split; [rewrite map_map; apply map_ext; exact K|]. split.
  - destruct (existsb _ _) eqn:X; [exact I|]. apply cache_same; [exact C|].
    assert (Y : map step ts = ts).
    { rewrite <- (map_id ts) at 2. apply map_ext_in. intros p Hp. unfold step. destruct (un_type fl m p) eqn:F; [|reflexivity].
      exfalso. assert (Z : existsb (fun q : (tident * mtype) * option variant => is_some (snd q)) (map (fun p => (p, un_type fl m p)) ts) = true).
      { apply existsb_exists. exists (p, un_type fl m p). rewrite F. split; [apply in_map_iff; exists p; rewrite F; auto|reflexivity]. }
      congruence. }
    rewrite Y. tauto.
  - intros i ty L. destruct (unrestricted_spec ts i ND NL) as (e & E & R & N). rewrite <- Hm in E.
    exists e. split; [exact R|]. split; [exact N|].
    assert (Ls : lookup i (map step ts) = Some (snd (step (i, ty)))).
    { clearbody ts step. clear -L K. induction ts as [|[j t] l IH]; [discriminate|]. cbn in L. cbn.
      pose proof (K (j, t)) as Kj. destruct (step (j, t)) as [j' t'] eqn:Q. cbn in Kj. subst j'.
      destruct (tident_eq_dec i j) as [->|]; [|apply IH, L]. injection L as ->. rewrite Q. reflexivity. }
    rewrite Ls. unfold step, un_type, unrestricted_type. cbn [fst snd]. rewrite E.
    destruct (selected fl (m_variant ty)); [|reflexivity]. destruct (tident_eq_dec i e); reflexivity.
Qed.

Lemma selected_asked fl v : selected fl v = true <-> asked fl v.
Proof.
  split.
  - destruct v as [x|x|x|x|x|x|x|x|x|x|x]; cbn; intros H; try discriminate; try (constructor; exact H).
    apply andb_true_iff in H. destruct H as [A B]. apply negb_true_iff in A. constructor; assumption.
  - intros [x H|x H L|x H|x H]; cbn; rewrite ?H, ?L; reflexivity.
Qed.

Lemma use_unrestricted_asked fl o :
  NoDup (map fst (o_types o)) -> no_restriction_loops (o_types o) -> o_bases o = None -> cache_ok o ->
  exists o', use_unrestricted_base_type fl o = Some o' /\ map fst (o_types o') = map fst (o_types o) /\ cache_ok o' /\
  forall i ty, lookup i (o_types o) = Some ty -> exists e,
    restricts_all (o_types o) i e /\ (forall c, ~ restricts (o_types o) e c) /\
    (asked fl (m_variant ty) -> i <> e ->
       lookup i (o_types o') = Some (set_variant ty (VReference (RefMeta e false 1 (Bounded 1))))) /\
    (~ asked fl (m_variant ty) \/ i = e -> lookup i (o_types o') = Some ty).
Proof.
  intros ND NL B C. destruct (use_unrestricted_spec fl o ND NL B C) as (o' & E & K & C' & H).
  exists o'. split; [exact E|]. split; [exact K|]. split; [exact C'|]. intros i ty L.
  destruct (H i ty L) as (e & R & N & X). exists e. split; [exact R|]. split; [exact N|].
  rewrite X. rewrite <- selected_asked. destruct (selected fl (m_variant ty)), (tident_eq_dec i e) as [->|D]; split; intros; try congruence; try reflexivity.
  destruct H0; congruence.
Qed.

(** ** remove_duplicates on the optimizer *)

Lemma dup_cache fuel o o' : cache_ok o -> opt_remove_duplicates fuel o = Some o' -> cache_ok o'.
Proof.
  unfold opt_remove_duplicates. destruct fuel as [|fuel]; cbn; [discriminate|]. intros C H.
  destruct (dup_scan (o_types o) (o_types o) [] []) as [|p l].
  - cbn in H. injection H as <-. apply cache_same; [exact C|tauto].
  - destruct (remove_duplicates fuel _); [|discriminate]. injection H as <-. exact I.
Qed.
