From Verif Require Import MetaModel MetaSpec.

#[global] Arguments resolved_or_self : simpl never.
#[global] Arguments get_resolved : simpl never.

(** ** Lookups *)

Lemma lookup_in {V} i (l : list (tident * V)) v : lookup i l = Some v -> In (i, v) l.
Proof.
  induction l as [|[j w] l IH]; cbn; [discriminate|].
  destruct (tident_eq_dec i j) as [->|N]; [intros [= ->]; left; reflexivity|right; auto].
Qed.

Lemma lookup_none {V} i (l : list (tident * V)) : lookup i l = None <-> ~ In i (map fst l).
Proof.
  induction l as [|[j w] l IH]; cbn; [tauto|].
  destruct (tident_eq_dec i j) as [->|N]; [split; [discriminate|tauto]|].
  rewrite IH. split; [intros H [E|E]; [congruence|tauto]|tauto].
Qed.

Lemma lookup_some {V} i (l : list (tident * V)) : In i (map fst l) -> exists v, lookup i l = Some v.
Proof.
  intros H. destruct (lookup i l) as [v|] eqn:E; [eauto|]. apply lookup_none in E. contradiction.
Qed.

Lemma lookup_unique {V} i v (l : list (tident * V)) : NoDup (map fst l) -> In (i, v) l -> lookup i l = Some v.
Proof.
  induction l as [|[j w] l IH]; cbn; [tauto|]. intros ND [E|H]; inversion ND; subst.
  - injection E as -> ->. destruct (tident_eq_dec i i); [reflexivity|congruence].
  - destruct (tident_eq_dec i j) as [->|N]; [|auto].
    exfalso. apply H2. apply (in_map fst) in H. exact H.
Qed.

Lemma lookup_map {V W} (f : tident -> V -> W) i (l : list (tident * V)) :
  lookup i (map (fun p => (fst p, f (fst p) (snd p))) l) = option_map (f i) (lookup i l).
Proof.
  induction l as [|[j w] l IH]; cbn; [reflexivity|].
  destruct (tident_eq_dec i j) as [->|N]; [reflexivity|exact IH].
Qed.

Lemma contains_in i l : contains i l = true <-> In i l.
Proof.
  unfold contains. rewrite existsb_exists. split.
  - intros (j & I & E). destruct (tident_eq_dec i j) as [->|]; [exact I|discriminate].
  - intros I. exists i. split; [exact I|]. destruct (tident_eq_dec i i); [reflexivity|congruence].
Qed.

Lemma is_left_eq {A} (d : forall a b : A, {a = b} + {a <> b}) a b : is_left (d a b) = true <-> a = b.
Proof. destruct (d a b); cbn; split; congruence. Qed.

Lemma max_eqb_eq a b : max_eqb a b = true <-> a = b.
Proof. apply (is_left_eq max_eq_dec). Qed.

(** ** Plain references *)

Lemma plain_ref_iff v b : plain_ref v = Some b <-> v = VReference (RefMeta b false 1 (Bounded 1)).
Proof.
  destruct v as [| | |r| | | | | | |]; cbn; try (split; discriminate).
  destruct r as [t n mi ma]. unfold ref_simple, ref_single. cbn.
  destruct (Nat.eqb_spec mi 1) as [->|Hm]; cbn; [|split; [discriminate|intros [= -> -> -> ->]; congruence]].
  destruct (max_eqb ma (Bounded 1)) eqn:M; cbn.
  - apply max_eqb_eq in M. subst. destruct n; cbn; split; congruence.
  - split; [discriminate|]. intros [= -> -> ->]. discriminate M.
Qed.

Lemma step_iff ts a b : plain_step ts a b <-> exists ty, lookup a ts = Some ty /\ plain_ref (m_variant ty) = Some b.
Proof.
  unfold plain_step. split; intros (ty & L & R); exists ty; (split; [exact L|]); apply plain_ref_iff, R.
Qed.

Lemma step_det ts a b c : plain_step ts a b -> plain_step ts a c -> b = c.
Proof. intros (ty & L & R) (ty' & L' & R'). rewrite L in L'. injection L' as <-. rewrite R in R'. congruence. Qed.

Lemma leads_trans ts a b c : leads ts a b -> leads ts b c -> leads ts a c.
Proof. induction 1; [auto|]. intros H'. econstructor; eauto. Qed.

Lemma leads_snoc ts a b c : leads ts a b -> plain_step ts b c -> leads ts a c.
Proof. intros H S. eapply leads_trans; [exact H|]. econstructor; [exact S|constructor]. Qed.

(** ** Resolution *)

Definition unvisited (ts : types) (visited : list tident) : nat :=
  length (filter (fun k => negb (contains k visited)) (map fst ts)).

Lemma filter_length_lt {A} (f g : A -> bool) l x :
  (forall y, In y l -> f y = true -> g y = true) -> In x l -> f x = false -> g x = true ->
  length (filter f l) < length (filter g l).
Proof.
  intros H I F G. induction l as [|y l IH]; [destruct I|].
  assert (L : length (filter f l) <= length (filter g l)).
  { clear - H. induction l as [|z l IH]; cbn; [lia|].
    assert (IH' : length (filter f l) <= length (filter g l)).
    { apply IH. intros y' [->|I] Hy; apply H; auto; [left; reflexivity|right; right; exact I]. }
    destruct (f z) eqn:E; [rewrite (H z) by (auto; right; left; reflexivity); cbn; lia|].
    destruct (g z); cbn; lia. }
  destruct I as [->|I].
  - cbn. rewrite F, G. cbn. lia.
  - assert (IH' : length (filter f l) < length (filter g l)) by (apply IH; [intros; apply H; [right|]; assumption|exact I]).
    cbn. destruct (f y) eqn:E; [rewrite (H y) by (auto; left; reflexivity); cbn; lia|]. destruct (g y); cbn; lia.
Qed.

Lemma filter_len {A} (f : A -> bool) l : length (filter f l) <= length l.
Proof. induction l as [|x l IH]; cbn; [lia|]. destruct (f x); cbn; lia. Qed.

Lemma unvisited_lt ts visited i : In i (map fst ts) -> contains i visited = false ->
  unvisited ts (visited ++ [i]) < unvisited ts visited.
Proof.
  intros I C. unfold unvisited. apply filter_length_lt with (x := i); [|exact I| |].
  - intros y _. rewrite !negb_true_iff. intros H. destruct (contains y visited) eqn:E; [|reflexivity].
    apply contains_in in E. assert (X : contains y (visited ++ [i]) = true) by (apply contains_in, in_app_iff; auto). congruence.
  - apply negb_false_iff, contains_in, in_app_iff. right. left. reflexivity.
  - rewrite C. reflexivity.
Qed.

Lemma enough_fuel fuel : forall ts i visited, unvisited ts visited < fuel ->
  get_resolved_impl fuel ts i visited <> None.
Proof.
  induction fuel as [|fuel IH]; intros ts i visited H; [lia|]. cbn.
  destruct (contains i visited) eqn:C; [discriminate|].
  destruct (lookup i ts) as [ty|] eqn:L; [|discriminate].
  destruct (plain_ref (m_variant ty)) as [b|]; [|discriminate].
  assert (F : get_resolved_impl fuel ts b (visited ++ [i]) <> None).
  { apply IH. apply lookup_in in L. apply (in_map fst) in L. cbn in L.
    pose proof (unvisited_lt ts visited i L C). lia. }
  destruct (get_resolved_impl fuel ts b (visited ++ [i])) as [[r|]|]; congruence.
Qed.

Lemma never_out ts i : get_resolved_impl (S (length ts)) ts i [] <> None.
Proof.
  apply enough_fuel. unfold unvisited.
  pose proof (filter_len (fun k => negb (contains k [])) (map fst ts)) as X. rewrite map_length in X. lia.
Qed.

Lemma resolved_sound fuel : forall ts i visited r, get_resolved_impl fuel ts i visited = Some r ->
  (forall v, In v visited -> leads ts v i) ->
  match r with
  | None => lookup i ts = None \/ In i visited
  | Some (b, ty) => leads ts i b /\ lookup b ts = Some ty /\
      (forall c, plain_step ts b c -> lookup c ts = None \/ (leads ts c b))
  end.
Proof.
  induction fuel as [|fuel IH]; intros ts i visited r H V; [discriminate|]. cbn in H.
  destruct (contains i visited) eqn:C; [injection H as <-; right; apply contains_in, C|].
  destruct (lookup i ts) as [ty|] eqn:L; [|injection H as <-; left; reflexivity].
  destruct (plain_ref (m_variant ty)) as [b|] eqn:P.
  - assert (S1 : plain_step ts i b) by (apply step_iff; eauto).
    destruct (get_resolved_impl fuel ts b (visited ++ [i])) as [r'|] eqn:E; [|discriminate].
    assert (V' : forall v, In v (visited ++ [i]) -> leads ts v b).
    { intros v I. apply in_app_iff in I. destruct I as [I|[<-|[]]]; [eapply leads_snoc; eauto|].
      econstructor; [exact S1|constructor]. }
    specialize (IH _ _ _ _ E V'). destruct r' as [[b' ty']|]; injection H as <-.
    + destruct IH as (A & B & D). split; [econstructor; eauto|]. split; assumption.
    + split; [constructor|]. split; [exact L|]. intros c Sc. rewrite (step_det _ _ _ _ Sc S1).
      destruct IH as [N|I]; [left; exact N|right]. apply in_app_iff in I. destruct I as [I|[<-|[]]].
      * apply V. exact I.
      * constructor.
  - injection H as <-. split; [constructor|]. split; [exact L|]. intros c Sc. apply step_iff in Sc.
    destruct Sc as (ty' & L' & P'). rewrite L in L'. injection L' as <-. congruence.
Qed.

Lemma get_resolved_impl_eq ts i : exists r, get_resolved_impl (S (length ts)) ts i [] = Some r /\ get_resolved ts i = r.
Proof.
  unfold get_resolved. destruct (get_resolved_impl (S (length ts)) ts i []) as [r|] eqn:E; [eauto|].
  exfalso. exact (never_out ts i E).
Qed.

Lemma resolved_spec ts i b ty : get_resolved ts i = Some (b, ty) ->
  leads ts i b /\ lookup b ts = Some ty /\ (forall c, plain_step ts b c -> lookup c ts = None \/ leads ts c b).
Proof.
  intros H. destruct (get_resolved_impl_eq ts i) as (r & E & G). rewrite H in G. subst r.
  apply (resolved_sound _ _ _ _ _ E). intros v [].
Qed.

Lemma resolved_none ts i : get_resolved ts i = None <-> lookup i ts = None.
Proof.
  destruct (get_resolved_impl_eq ts i) as (r & E & G). split; intros H.
  - rewrite H in G. subst r. destruct (resolved_sound _ _ _ _ _ E) as [N|[]]; [intros v []|exact N].
  - rewrite G. cbn in E. rewrite H in E. congruence.
Qed.

(** A path to a type with no further (existing) definition never meets a loop. *)
Definition terminal (ts : types) (b : tident) : Prop := forall c, plain_step ts b c -> lookup c ts = None.

Lemma leads_missing ts a b : lookup a ts = None -> leads ts a b -> a = b.
Proof. intros N H. destruct H as [|a b c (ty & L & _) _]; congruence. Qed.

Lemma no_return_t ts x b : leads ts x b -> terminal ts b -> lookup b ts <> None ->
  forall y, plain_step ts x y -> leads ts y x -> False.
Proof.
  intros H T P. induction H as [b|x x' b S R IH]; intros y Sy L.
  - apply leads_missing in L; [|exact (T _ Sy)]. subst y. exact (P (T _ Sy)).
  - assert (E : x' = y) by (eapply step_det; eauto). subst y. clear Sy. specialize (IH T P).
    inversion L as [|? y ? S2 L2]; subst.
    + eapply IH; [exact S|constructor].
    + apply (IH y S2). eapply leads_snoc; [exact L2|exact S].
Qed.

Lemma resolved_complete_t ts b ty : terminal ts b -> lookup b ts = Some ty ->
  forall i, leads ts i b -> forall fuel visited,
    (forall v, In v visited -> exists w, plain_step ts v w /\ leads ts w i) ->
    get_resolved_impl fuel ts i visited = None \/ get_resolved_impl fuel ts i visited = Some (Some (b, ty)).
Proof.
  intros T L i H. induction H as [b|x y b S H IH]; intros fuel visited V.
  - destruct fuel as [|fuel]; [left; reflexivity|]. cbn.
    destruct (contains b visited) eqn:C.
    { apply contains_in in C. destruct (V _ C) as (w & S & W). exfalso.
      apply leads_missing in W; [|exact (T _ S)]. subst w. rewrite (T _ S) in L. discriminate. }
    rewrite L. destruct (plain_ref (m_variant ty)) as [c|] eqn:P; [|right; reflexivity].
    assert (S1 : plain_step ts b c) by (apply step_iff; eauto). specialize (T _ S1).
    destruct fuel as [|fuel]; [left; reflexivity|]. cbn. rewrite T.
    destruct (contains c (visited ++ [b])); right; reflexivity.
  - specialize (IH T L). destruct fuel as [|fuel]; [left; reflexivity|]. cbn.
    destruct (contains x visited) eqn:C.
    { apply contains_in in C. destruct (V _ C) as (w & Sw & W). exfalso.
      apply (no_return_t ts x b) with (y := w); try assumption.
      econstructor; [exact S|exact H]. congruence. }
    destruct S as (tx & Lx & Rx). rewrite Lx. assert (P : plain_ref (m_variant tx) = Some y) by (apply plain_ref_iff, Rx).
    rewrite P. destruct (IH fuel (visited ++ [x])) as [E|E].
    + intros v I. apply in_app_iff in I. destruct I as [I|[<-|[]]].
      * destruct (V _ I) as (w & Sw & W). exists w. split; [exact Sw|]. eapply leads_snoc; [exact W|exists tx; auto].
      * exists y. split; [exists tx; auto|constructor].
    + left. rewrite E. reflexivity.
    + right. rewrite E. reflexivity.
Qed.

Lemma resolved_complete ts i b ty : leads ts i b -> lookup b ts = Some ty -> terminal ts b ->
  get_resolved ts i = Some (b, ty).
Proof.
  intros H L T. destruct (get_resolved_impl_eq ts i) as (r & E & <-).
  destruct (resolved_complete_t ts b ty T L i H (S (length ts)) []) as [N|S]; [intros v []|congruence|congruence].
Qed.

Lemma resolved_terminal ts i b ty : no_loops ts -> get_resolved ts i = Some (b, ty) -> terminal ts b.
Proof.
  intros NL H c S. apply resolved_spec in H. destruct H as (_ & _ & H). destruct (H c S) as [N|L]; [exact N|].
  exfalso. exact (NL _ _ S L).
Qed.

Lemma resolved_idem ts i b ty : no_loops ts -> get_resolved ts i = Some (b, ty) -> get_resolved ts b = Some (b, ty).
Proof.
  intros NL H. apply resolved_complete; [constructor| |eapply resolved_terminal; eassumption].
  apply resolved_spec in H. apply H.
Qed.

(** ** Structural equality *)

Lemma iff_and_true (b1 b2 : bool) (P Q : Prop) : (b1 = true <-> P) -> (b2 = true <-> Q) -> (b1 && b2 = true <-> P /\ Q).
Proof. intros H1 H2. rewrite andb_true_iff. tauto. Qed.

Section Eq.
  Variable ts : types.
  Notation f := (resolved_or_self ts).

  Lemma ti_eq a b : ti_type_eq ts a b = true <-> f a = f b.
  Proof. apply (is_left_eq tident_eq_dec). Qed.

  Lemma opt_eq a b : opt_type_eq ts a b = true <-> option_map f a = option_map f b.
  Proof. destruct a, b; cbn; try (split; congruence). rewrite ti_eq. split; congruence. Qed.

  Lemma base_eq a b : base_type_eq ts a b = true <-> rename_base f a = rename_base f b.
  Proof. destruct a, b; cbn; try (split; congruence); rewrite ti_eq; split; congruence. Qed.

  Lemma iter_eq {A} (eq : A -> A -> bool) (n : A -> A) (ok : A -> Prop) :
    (forall a b, eq a b = true <-> n a = n b /\ ok a) ->
    forall x y, type_eq_iter eq x y = true <-> map n x = map n y /\ Forall ok x.
  Proof.
    intros H x. induction x as [|a x IH]; intros [|b y]; cbn; try (split; [discriminate|intros [? _]; discriminate]).
    - split; auto.
    - destruct (eq a b) eqn:E.
      + apply H in E. destruct E as [E1 E2]. rewrite IH. split.
        * intros [M F]. split; [congruence|constructor; assumption].
        * intros [M F]. injection M as _ M. inversion F; auto.
      + split; [discriminate|]. intros [M F]. injection M as M1 _. inversion F; subst.
        assert (eq a b = true) by (apply H; auto). congruence.
  Qed.

  Lemma forall_true {A} (l : list A) : Forall (fun _ => True) l.
  Proof. induction l; constructor; auto. Qed.

  Lemma utype_eq a b : utype_type_eq ts a b = true <-> rename_utype f a = rename_utype f b /\ True.
  Proof.
    unfold utype_type_eq. rewrite andb_true_iff, ti_eq, (is_left_eq optstr_dec). destruct a, b; unfold rename_utype; cbn. split.
    - intros [-> ->]. auto.
    - intros [[= -> ->] _]. auto.
  Qed.

  Lemma evar_eq a b : evariant_type_eq ts a b = true <-> rename_evariant f a = rename_evariant f b /\ True.
  Proof.
    unfold evariant_type_eq. rewrite !andb_true_iff, opt_eq, (is_left_eq pident_eq_dec), (is_left_eq use_dec),
      !(is_left_eq optstr_dec), (is_left_eq strs_dec). destruct a, b; cbn. split.
    - intros (((((-> & ->) & E) & ->) & ->) & ->). unfold rename_evariant. cbn. rewrite E. auto.
    - intros [E _]. unfold rename_evariant in E. cbn in E. injection E as -> -> -> -> -> ->. tauto.
  Qed.

  Lemma entry_eq a b : entry_type_eq ts a b = true <-> rename_entry f a = rename_entry f b /\ True.
  Proof.
    unfold entry_type_eq, derived_type_eq. rewrite !andb_true_iff, !ti_eq, (is_left_eq optstr_dec), (is_left_eq rel_dec).
    destruct a as [k [t d r]], b as [k' [t' d' r']]; cbn. unfold rename_entry. cbn. split.
    - intros (-> & (-> & ->) & ->). auto.
    - intros [[= -> -> -> ->] _]. auto.
  Qed.

  Lemma element_eq a b : element_type_eq ts a b = true <-> rename_element f a = rename_element f b /\ el_variant a <> EVText.
  Proof.
    unfold element_type_eq. rewrite !andb_true_iff, (is_left_eq pident_eq_dec), (is_left_eq form_dec), !Nat.eqb_eq,
      max_eqb_eq, (is_left_eq optstr_dec), (is_left_eq strs_dec).
    destruct a as [i v fo fl mi ma d do], b as [i' v' fo' fl' mi' ma' d' do']; unfold rename_element; cbn.
    assert (V : evariant_eq ts v v' = true <->
      rename_elvar f v = rename_elvar f v' /\ v <> EVText).
    { destruct v, v'; cbn; try (split; [discriminate|intros [? ?]; congruence]).
      - rewrite (is_left_eq any_dec). split; [intros ->; split; congruence|intros [[= ->] _]; reflexivity].
      - rewrite andb_true_iff, (is_left_eq mode_dec), ti_eq. split; [intros [-> ->]; split; congruence|intros [[= -> ->] _]; auto]. }
    rewrite V. clear V. split.
    - intros (((((((-> & E & N) & ->) & ->) & ->) & ->) & ->) & ->). rewrite E. auto.
    - intros [E N]. injection E as -> E -> -> -> -> -> ->. tauto.
  Qed.

  Lemma group_eq a b : group_type_eq ts a b = true <->
    rename_group f a = rename_group f b /\ Forall (fun e => el_variant e <> EVText) (gr_elements a).
  Proof.
    unfold group_type_eq. rewrite andb_true_iff, Bool.eqb_true_iff,
      (iter_eq _ (rename_element f) (fun e => el_variant e <> EVText) element_eq).
    destruct a, b; unfold rename_group; cbn. split; [intros (-> & -> & F); auto|intros [[= -> ->] F]; auto].
  Qed.

  Lemma attr_eq a b : attr_type_eq ts a b = true <-> rename_attr f a = rename_attr f b /\ True.
  Proof.
    unfold attr_type_eq. rewrite !andb_true_iff, (is_left_eq pident_eq_dec), (is_left_eq use_dec), (is_left_eq form_dec),
      !(is_left_eq optstr_dec), (is_left_eq strs_dec).
    destruct a as [i v u fo de d do n], b as [i' v' u' fo' de' d' do' n']; unfold rename_attr; cbn.
    assert (V : avariant_eq ts v v' = true <->
      rename_avar f v = rename_avar f v').
    { destruct v, v'; cbn; try (split; [discriminate|congruence]).
      - rewrite (is_left_eq any_dec). split; congruence.
      - rewrite ti_eq. split; congruence. }
    rewrite V. clear V. split.
    - intros (((((((-> & E) & ->) & ->) & ->) & ->) & ->) & ->). rewrite E. auto.
    - intros [E _]. injection E as -> E -> -> -> -> -> ->. tauto.
  Qed.

  Lemma type_eq_spec a b : type_eq ts a b = true <-> same_structure ts a b /\ comparable (m_variant a).
  Proof.
    unfold type_eq, same_structure. destruct (optstr_dec (m_display a) (m_display b)) as [D|D];
      [|split; [discriminate|tauto]].
    destruct (m_variant a) as [x|x|x|x|x|x|x|x|x|x|x] eqn:Ea, (m_variant b) as [y|y|y|y|y|y|y|y|y|y|y]; cbn [comparable rename];
      try (split; [discriminate|intros [[_ E] _]; discriminate E]).
    - unfold union_type_eq. rewrite !andb_true_iff, base_eq, (iter_eq _ _ (fun _ => True) utype_eq), (is_left_eq constrains_dec).
      pose proof (forall_true (un_types x)). split.
      + intros ((E1 & E2 & _) & E3). rewrite E1, E2, E3. tauto.
      + intros [[_ E] _]. injection E as -> -> ->. tauto.
    - rewrite (is_left_eq build_in_dec). split; [intros ->; tauto|intros [[_ [= ->]] _]; reflexivity].
    - split; [discriminate|tauto].
    - unfold ref_type_eq. rewrite !andb_true_iff, ti_eq, Bool.eqb_true_iff, Nat.eqb_eq, max_eqb_eq. split.
      + intros (((-> & ->) & ->) & ->). tauto.
      + intros [[_ [= -> -> -> ->]] _]. tauto.
    - unfold enum_type_eq. rewrite !andb_true_iff, base_eq, (iter_eq _ _ (fun _ => True) evar_eq), (is_left_eq constrains_dec).
      pose proof (forall_true (en_variants x)). split.
      + intros ((E1 & E2 & _) & E3). rewrite E1, E2, E3. tauto.
      + intros [[_ E] _]. injection E as -> -> ->. tauto.
    - unfold dynamic_type_eq. rewrite !andb_true_iff, opt_eq, Bool.eqb_true_iff, (iter_eq _ _ (fun _ => True) entry_eq).
      pose proof (forall_true (dy_derived x)). split.
      + intros ((E1 & E2) & E3 & _). rewrite E1, E2, E3. tauto.
      + intros [[_ E] _]. injection E as -> -> ->. tauto.
    - rewrite group_eq. split; [intros [-> F]; tauto|intros [[_ [= E1 E2]] F]]. split; [|exact F].
      destruct x, y; cbn in *; unfold rename_group; cbn. congruence.
    - rewrite group_eq. split; [intros [-> F]; tauto|intros [[_ [= E1 E2]] F]]. split; [|exact F].
      destruct x, y; cbn in *; unfold rename_group; cbn. congruence.
    - rewrite group_eq. split; [intros [-> F]; tauto|intros [[_ [= E1 E2]] F]]. split; [|exact F].
      destruct x, y; cbn in *; unfold rename_group; cbn. congruence.
    - unfold complex_type_eq. rewrite !andb_true_iff, base_eq, opt_eq, !Bool.eqb_true_iff, Nat.eqb_eq, max_eqb_eq,
        (iter_eq _ _ (fun _ => True) attr_eq).
      pose proof (forall_true (cx_attrs x)). split.
      + intros ((((((E1 & E2) & E3) & E4) & E5) & E6) & E7 & _). rewrite E1, E2, E3, E4, E5, E6, E7. tauto.
      + intros [[_ E] _]. injection E as -> -> -> -> -> -> ->. tauto.
    - unfold simple_type_eq. rewrite !andb_true_iff, ti_eq, Bool.eqb_true_iff, (is_left_eq constrains_dec). split.
      + intros ((-> & ->) & ->). tauto.
      + intros [[_ [= -> -> ->]] _]. tauto.
  Qed.

  (** ** Hashing *)

  (** The hash of a type is a function of the renamed type. *)
  Lemma iter_hash {A} (h : A -> list htok) (n : A -> A) :
    (forall a b, n a = n b -> h a = h b) -> forall x y, map n x = map n y -> hash_iter h x = hash_iter h y.
  Proof.
    intros H x. unfold hash_iter.
    assert (G : forall y, map n x = map n y -> flat_map h x = flat_map h y /\ length x = length y).
    { induction x as [|a x IH]; intros [|b y] E; try discriminate; [auto|]. injection E as E1 E2.
      destruct (IH _ E2) as [I1 I2]. cbn. rewrite (H _ _ E1), I1, I2. auto. }
    intros y E. destruct (G y E) as [-> ->]. reflexivity.
  Qed.

  Lemma base_hash_eq a b : rename_base f a = rename_base f b -> base_hash ts a = base_hash ts b.
  Proof. destruct a, b; cbn; try discriminate; unfold ti_hash; congruence. Qed.
  Lemma opt_hash_eq a b : option_map f a = option_map f b -> opt_hash ts a = opt_hash ts b.
  Proof. destruct a, b; cbn; try discriminate; unfold ti_hash; congruence. Qed.

  Lemma element_hash_eq a b : rename_element f a = rename_element f b -> element_hash ts a = element_hash ts b.
  Proof.
    destruct a as [i v fo fl mi ma d do], b as [i' v' fo' fl' mi' ma' d' do']; unfold rename_element, element_hash; cbn.
    intros [= -> E -> -> -> -> -> ->]. destruct v, v'; try discriminate E; try (injection E; intros); unfold ti_hash; cbn; congruence.
  Qed.

  Lemma attr_hash_eq a b : rename_attr f a = rename_attr f b -> attr_hash ts a = attr_hash ts b.
  Proof.
    destruct a as [i v u fo de d do n], b as [i' v' u' fo' de' d' do' n']; unfold rename_attr, attr_hash; cbn.
    intros [= -> E -> -> -> -> -> ->]. destruct v, v'; try discriminate E; try (injection E; intros); unfold ti_hash; cbn; congruence.
  Qed.

  Lemma group_hash_eq a b : rename_group f a = rename_group f b -> group_hash ts a = group_hash ts b.
  Proof.
    destruct a as [m x], b as [n y]; unfold rename_group, group_hash; cbn [MetaModel.gr_mixed MetaModel.gr_elements]. intros [= -> E].
    rewrite (iter_hash (element_hash ts) (rename_element f) element_hash_eq _ _ E). reflexivity.
  Qed.

  Lemma hash_spec a b : same_structure ts a b -> type_hash ts a = type_hash ts b.
  Proof.
    unfold same_structure, type_hash. intros [-> E]. f_equal.
    destruct (m_variant a) as [x|x|x|x|x|x|x|x|x|x|x], (m_variant b) as [y|y|y|y|y|y|y|y|y|y|y]; cbn [rename] in E;
      try discriminate E.
    - injection E as E1 E2 E3. unfold union_hash. rewrite (base_hash_eq _ _ E1), E3.
      rewrite (iter_hash (utype_hash ts) (rename_utype f)) with (y := un_types y); [reflexivity| |exact E2].
      intros [t d] [t' d']; unfold rename_utype, utype_hash, ti_hash; cbn. congruence.
    - congruence.
    - congruence.
    - injection E as E1 E2 E3 E4. unfold ref_hash, ti_hash. congruence.
    - injection E as E1 E2 E3. unfold enum_hash. rewrite (base_hash_eq _ _ E1), E3.
      rewrite (iter_hash (evariant_hash ts) (rename_evariant f)) with (y := en_variants y); [reflexivity| |exact E2].
      intros [i u t d do n] [i' u' t' d' do' n']; unfold rename_evariant, evariant_hash; cbn. intros [= -> -> Et -> -> ->].
      rewrite (opt_hash_eq _ _ Et). reflexivity.
    - injection E as E1 E2 E3. unfold dynamic_hash. rewrite (opt_hash_eq _ _ E1), E2.
      rewrite (iter_hash (entry_hash ts) (rename_entry f)) with (y := dy_derived y); [reflexivity| |exact E3].
      intros [k [t d r]] [k' [t' d' r']]; unfold rename_entry, entry_hash, ti_hash; cbn. congruence.
    - apply group_hash_eq. congruence.
    - apply group_hash_eq. congruence.
    - apply group_hash_eq. congruence.
    - injection E as E1 E2 E3 E4 E5 E6 E7. unfold complex_hash. rewrite (base_hash_eq _ _ E1), (opt_hash_eq _ _ E2), E3, E4, E5, E6.
      rewrite (iter_hash (attr_hash ts) (rename_attr f) attr_hash_eq _ _ E7). reflexivity.
    - injection E as E1 E2 E3. unfold simple_hash, ti_hash. congruence.
  Qed.

  Lemma no_text_renamed l : forall l', map (rename_element f) l = map (rename_element f) l' ->
    Forall (fun e => el_variant e <> EVText) l -> Forall (fun e => el_variant e <> EVText) l'.
  Proof.
    induction l as [|a l IH]; intros [|b l'] E C; try discriminate E; [constructor|].
    cbn in E. assert (E1 : rename_element f a = rename_element f b) by congruence.
    assert (E2 : map (rename_element f) l = map (rename_element f) l') by congruence.
    inversion C; subst. constructor; [|apply IH; assumption].
    apply (f_equal el_variant) in E1. cbn in E1. intros T. rewrite T in E1. destruct (el_variant a); cbn in E1; congruence.
  Qed.

  Lemma same_comparable a b : same_structure ts a b -> comparable (m_variant a) -> comparable (m_variant b).
  Proof.
    intros [D E] C. destruct (m_variant a) as [x|x|x|x|x|x|x|x|x|x|x], (m_variant b) as [y|y|y|y|y|y|y|y|y|y|y];
      cbn [rename comparable] in *; try discriminate E; auto;
      (apply (no_text_renamed (gr_elements x)); [|exact C]; injection E; auto).
  Qed.
End Eq.
