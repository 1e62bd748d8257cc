From Verif Require NameModel.
From Verif Require Import MetaModel MetaSpec MetaProofs DupModel DupProofs OptModel OptSpec OptProofs UnionModel UnionProofs
  FlatModel FlatProofs PassModel PassProofs OptRunModel OptRunSpec.

Lemma run_app modules fuel l1 l2 s : run_passes modules fuel (l1 ++ l2) s =
  match run_passes modules fuel l1 s with Some s' => run_passes modules fuel l2 s' | None => None end.
Proof. revert s; induction l1 as [|p l1 IH]; intros s; [reflexivity|]. cbn. destruct (run_pass modules fuel p s); [apply IH|reflexivity]. Qed.

Lemma run_exec modules fuel b p s s' : run_passes modules fuel (exec b p) s = Some s' ->
  (b = true /\ run_pass modules fuel p s = Some s') \/ (b = false /\ s' = s).
Proof.
  unfold exec. destruct b; cbn; [|intros [= <-]; auto]. destruct (run_pass modules fuel p s); [|discriminate]. intros [= <-]. auto.
Qed.

(** * Something about all types *)
Definition all_types (Q : variant -> Prop) (o : optimizer) : Prop := Forall (fun p => Q (m_variant (snd p))) (o_types o).
(** It concerns neither references nor groups nor complex types. *)
Record other (Q : variant -> Prop) : Prop := Other {
  q_ref : forall x, Q (VReference x); q_complex : forall x, Q (VComplex x);
  q_choice : forall g, Q (VChoice g); q_sequence : forall g, Q (VSequence g) }.

Lemma all_set (Q : variant -> Prop) i v ts : Q v -> Forall (fun p : tident * mtype => Q (m_variant (snd p))) ts ->
  Forall (fun p => Q (m_variant (snd p))) (set_type i v ts).
Proof.
  intros V H. unfold set_type. apply Forall_map. eapply Forall_impl; [|exact H]. intros [j t] Ht. cbn in *.
  destruct (tident_eq_dec i j); cbn; assumption.
Qed.

Lemma all_cardinality Q o i o' : other Q -> all_types Q o -> merge_choice_cardinality o i = Ok o' -> all_types Q o'.
Proof.
  intros [R C H S] A. unfold merge_choice_cardinality. destruct (get_variant (o_types o) i) as [v|]; [|discriminate]. destruct v; try discriminate.
  destruct (cx_content x) as [c|]; [|discriminate]. destruct (get_variant (o_types o) c) as [vc|]; [|discriminate].
  destruct vc; try discriminate. destruct (get_variant _ i) as [vi|]; [|discriminate]. destruct vi; try discriminate.
  intros [= <-]. unfold all_types. cbn [o_types with_types]. apply all_set; [apply C|]. apply all_set; [apply H|exact A].
Qed.

Lemma all_simplify Q o i o' : other Q -> all_types Q o -> simplify_mixed_type o i = Ok o' -> all_types Q o'.
Proof.
  intros [R C H S] A. unfold simplify_mixed_type. destruct (get_variant (o_types o) i) as [v|]; [|discriminate]. destruct v; try discriminate.
  destruct (cx_content x) as [c|]; [|discriminate].
  assert (F : forall v r, Q v ->
    match get_variant (set_type c v (o_types o)) i with
    | Some (VComplex x') => Ok (with_types o (set_type i (VComplex (ComplexMeta (cx_base x') (cx_content x') (cx_min x') (cx_max x')
        (cx_dynamic x') false (cx_attrs x'))) (set_type c v (o_types o))))
    | _ => Ok (with_types o (set_type c v (o_types o)))
    end = @Ok pass_error _ r -> all_types Q r).
  { intros v r V E.
    assert (K : all_types Q (with_types o (set_type c v (o_types o)))) by (unfold all_types; cbn; apply all_set; assumption).
    destruct (get_variant (set_type c v (o_types o)) i) as [vi|]; [|injection E as <-; exact K].
    destruct vi; injection E as <-; try exact K. unfold all_types. cbn [o_types with_types]. apply all_set; [apply C|exact K]. }
  destruct (get_variant (o_types o) c) as [vc|]; [|discriminate]. destruct vc; try discriminate.
  - destruct (cx_max x) as [|n]; [|discriminate]. intros E. exact (F _ _ (H _) E).
  - destruct (forallb _ _); [|discriminate]. intros E. exact (F _ _ (S _) E).
Qed.

Lemma all_fold {E} (Q : variant -> Prop) (f : optimizer -> tident -> outcome E optimizer) ids :
  (forall o i o', all_types Q o -> f o i = Ok o' -> all_types Q o') ->
  forall o o', all_types Q o ->
  fold_left (fun acc i => match acc with Ok o => match f o i with Err _ => Panic | r => r end | r => r end) ids (Ok o) = Ok o' ->
  all_types Q o'.
Proof.
  intros F. induction ids as [|i ids IH]; cbn; intros o o' A H; [injection H as <-; exact A|].
  destruct (f o i) as [o1| |] eqn:S.
  - eapply IH; [eapply F; eassumption|exact H].
  - exfalso. clear -H. induction ids; cbn in H; [discriminate|auto].
  - exfalso. clear -H. induction ids; cbn in H; [discriminate|auto].
Qed.

Lemma all_replace (Q : variant -> Prop) f o : (forall v v', f v = Some v' -> Q v') -> all_types Q o -> all_types Q (replace_types f o).
Proof.
  intros F A. unfold all_types, replace_types. cbn [o_types]. apply Forall_map. eapply Forall_impl; [|exact A].
  intros [j t] Ht. cbn in *. destruct (f (m_variant t)) as [v|] eqn:E; cbn; [eapply F; exact E|exact Ht].
Qed.

Lemma mapM_all {B} (P : B -> Prop) {A} (g : A -> option B) l : forall l', (forall a b, In a l -> g a = Some b -> P b) -> mapM g l = Some l' -> Forall P l'.
Proof.
  induction l as [|a l IH]; intros l' H E; cbn in E; [injection E as <-; constructor|].
  destruct (g a) as [b|] eqn:G; [|discriminate]. destruct (mapM g l) as [k|] eqn:M; [|discriminate]. injection E as <-.
  constructor; [eapply H; [left; reflexivity|exact G]|]. eapply IH; [|reflexivity]. intros x y Hx. apply H. right. exact Hx.
Qed.

Lemma all_dedup (Q : variant -> Prop) o o' :
  (forall f v v', Q v -> dedup_union f v = Some v' -> Q v') ->
  all_types Q o -> remove_duplicate_union_variants o = Some o' -> all_types Q o'.
Proof.
  intros F A. unfold remove_duplicate_union_variants. destruct (mapM _ (o_types o)) as [ts|] eqn:M; [|discriminate]. intros [= <-].
  unfold all_types. cbn [o_types]. eapply mapM_all; [|exact M]. intros p q Hp E. cbn in E.
  destruct (dedup_union (td_resolve (get_typedefs o)) (m_variant (snd p))) as [v|] eqn:D; [|discriminate]. injection E as <-. cbn.
  eapply F; [|exact D]. unfold all_types in A. rewrite Forall_forall in A. exact (A _ Hp).
Qed.

(** The passes after the last one of each kind. *)
Section Late.
  Variable modules : list (nat * option string).
  Variable fuel : nat.
  Variable Q : variant -> Prop.
  Hypothesis O : other Q.

  Lemma late_groups b s s' : run_passes modules fuel (exec b PCardinalities) s = Some s' -> all_types Q (ps_opt s) -> all_types Q (ps_opt s').
  Proof.
    intros H A. apply run_exec in H as [[_ H]|[_ ->]]; [|exact A]. cbn in H.
    destruct (merge_choice_cardinalities (ps_opt s)) as [o1| |] eqn:E; try discriminate. injection H as <-. cbn.
    eapply (all_fold Q merge_choice_cardinality); [|exact A|exact E]. intros. eapply all_cardinality; eassumption.
  Qed.
  Lemma late_mixed b order s s' : run_passes modules fuel (exec b (PSimplifies order)) s = Some s' -> all_types Q (ps_opt s) -> all_types Q (ps_opt s').
  Proof.
    intros H A. apply run_exec in H as [[_ H]|[_ ->]]; [|exact A]. cbn in H.
    destruct (simplify_in_order order (ps_opt s)) as [o1| |] eqn:E; try discriminate. injection H as <-. cbn.
    eapply (all_fold Q simplify_mixed_type); [|exact A|exact E]. intros. eapply all_simplify; eassumption.
  Qed.
  Lemma late_unions b s s' : run_passes modules fuel (exec b PEmptyUnions) s = Some s' -> all_types Q (ps_opt s) -> all_types Q (ps_opt s').
  Proof.
    intros H A. apply run_exec in H as [[_ H]|[_ ->]]; [|exact A]. injection H as <-. cbn. apply all_replace; [|exact A].
    intros v v' E. destruct v; try discriminate. cbn in E. destruct (un_types x) as [|t [|u l]]; try discriminate.
    - destruct (base_ident (un_base x)); [|discriminate]. injection E as <-. apply O.
    - injection E as <-. apply O.
  Qed.
  Lemma late_enums b s s' : run_passes modules fuel (exec b PEmptyEnums) s = Some s' -> all_types Q (ps_opt s) -> all_types Q (ps_opt s').
  Proof.
    intros H A. apply run_exec in H as [[_ H]|[_ ->]]; [|exact A]. injection H as <-. cbn. apply all_replace; [|exact A].
    intros v v' E. destruct v; try discriminate. cbn in E. destruct (en_variants x) as [|t l]; try discriminate.
    destruct (base_ident (en_base x)); [|discriminate]. injection E as <-. apply O.
  Qed.
  Lemma late_dedup b s s' : (forall f v v', Q v -> dedup_union f v = Some v' -> Q v') ->
    run_passes modules fuel (exec b PDuplicateVariants) s = Some s' -> all_types Q (ps_opt s) -> all_types Q (ps_opt s').
  Proof.
    intros D H A. apply run_exec in H as [[_ H]|[_ ->]]; [|exact A]. cbn in H.
    destruct (remove_duplicate_union_variants (ps_opt s)) as [o1|] eqn:E; [|discriminate]. injection H as <-. cbn.
    eapply all_dedup; eassumption.
  Qed.
End Late.

(** The run in pieces. *)
Lemma exec_pieces modules fuel include order f counter ts ts' :
  exec_optimizer modules fuel include order f counter ts = Some ts' ->
  exists s0 s1 s2 s3 s4 s5 s6,
    run_passes modules fuel (exec (f_empty_enum_variants f) PEmptyVariants) s0 = Some s1 /\
    run_passes modules fuel (exec (f_empty_enums f) PEmptyEnums) s1 = Some s2 /\
    run_passes modules fuel (exec (f_duplicate_variants f) PDuplicateVariants) s2 = Some s3 /\
    run_passes modules fuel (exec (f_empty_unions f) PEmptyUnions) s3 = Some s4 /\
    run_passes modules fuel (exec (f_merge_choice f) PCardinalities) s4 = Some s5 /\
    run_passes modules fuel (exec (f_simplify_mixed f) (PSimplifies (order (o_types (ps_opt s5))))) s5 = Some s6 /\
    ts' = o_types (ps_opt s6) /\
    exists l, passes_of f include = l ++ exec (f_empty_enum_variants f) PEmptyVariants ++ exec (f_empty_enums f) PEmptyEnums ++
        exec (f_duplicate_variants f) PDuplicateVariants ++ exec (f_empty_unions f) PEmptyUnions ++ exec (f_merge_choice f) PCardinalities /\
      run_passes modules fuel l (PState (opt_new ts) counter) = Some s0.
Proof.
  unfold exec_optimizer. destruct (run_passes modules fuel (passes_of f include) _) as [s5|] eqn:E; [|discriminate].
  destruct (run_passes modules fuel (exec (f_simplify_mixed f) _) s5) as [s6|] eqn:E6; [|discriminate]. intros [= <-].
  assert (L : exists l, passes_of f include = l ++ exec (f_empty_enum_variants f) PEmptyVariants ++ exec (f_empty_enums f) PEmptyEnums ++
        exec (f_duplicate_variants f) PDuplicateVariants ++ exec (f_empty_unions f) PEmptyUnions ++ exec (f_merge_choice f) PCardinalities).
  { unfold passes_of. eexists. rewrite !app_assoc. reflexivity. }
  destruct L as [l L]. rewrite L in E. rewrite run_app in E.
  destruct (run_passes modules fuel l _) as [s0|] eqn:E0; [|discriminate]. rewrite run_app in E.
  destruct (run_passes modules fuel (exec (f_empty_enum_variants f) _) s0) as [s1|] eqn:E1; [|discriminate]. rewrite run_app in E.
  destruct (run_passes modules fuel (exec (f_empty_enums f) _) s1) as [s2|] eqn:E2; [|discriminate]. rewrite run_app in E.
  destruct (run_passes modules fuel (exec (f_duplicate_variants f) _) s2) as [s3|] eqn:E3; [|discriminate]. rewrite run_app in E.
  destruct (run_passes modules fuel (exec (f_empty_unions f) _) s3) as [s4|] eqn:E4; [|discriminate].
  exists s0, s1, s2, s3, s4, s5, s6. repeat (split; [assumption|]). split; [reflexivity|]. exists l. split; assumption.
Qed.

(** * Enumerations *)
Definition q_variants (v : variant) : Prop :=
  match v with VEnumeration x => forall e, In e (en_variants x) -> pi_name (ev_ident e) <> Named "" | _ => True end.
Definition q_enums (v : variant) : Prop :=
  match v with VEnumeration x => en_variants x = [] -> en_base x = BaseNone | _ => True end.
Definition q_unions (v : variant) : Prop :=
  match v with VUnion x => (forall t, un_types x <> [t]) /\ (un_types x = [] -> un_base x = BaseNone) | _ => True end.
Definition q_members (v : variant) : Prop :=
  match v with VUnion x => NoDup (map ut_type (un_types x)) | _ => True end.

Lemma dedup_enum (Q : variant -> Prop) : (forall x, Q (VUnion x)) -> forall f v v', Q v -> dedup_union f v = Some v' -> Q v'.
Proof.
  intros U f v v' H E. destruct v; cbn in E; try (injection E as <-; exact H).
  destruct (dedup_members f (un_types x) []); [|discriminate]. injection E as <-. apply U.
Qed.

Lemma in_all Q o i ty : all_types Q o -> In (i, ty) (o_types o) -> Q (m_variant ty).
Proof. unfold all_types. rewrite Forall_forall. intros A H. exact (A _ H). Qed.

Lemma variants_gone modules fuel include order f counter ts ts' : f_empty_enum_variants f = true ->
  exec_optimizer modules fuel include order f counter ts = Some ts' -> no_empty_variants ts'.
Proof.
  intros F H. destruct (exec_pieces _ _ _ _ _ _ _ _ H) as (s0 & s1 & s2 & s3 & s4 & s5 & s6 & E1 & E2 & E3 & E4 & E5 & E6 & -> & _).
  assert (O : other q_variants) by (constructor; intros; exact Logic.I).
  assert (A : all_types q_variants (ps_opt s1)).
  { apply run_exec in E1 as [[_ E1]|[E1 _]]; [|congruence]. injection E1 as <-. cbn. unfold all_types, remove_empty_enum_variants. cbn [o_types].
    apply Forall_map. apply Forall_forall. intros [j t] _. cbn. destruct (m_variant t); cbn; try exact Logic.I.
    intros e He. apply filter_In in He as [_ He]. unfold empty_name in He. destruct (pi_name (ev_ident e)) as [s|]; [|discriminate].
    intros X. injection X as ->. discriminate He. }
  eapply late_enums in A; [|exact O|exact E2]. eapply late_dedup in A; [|apply dedup_enum; intros; exact Logic.I|exact E3].
  eapply late_unions in A; [|exact O|exact E4]. eapply late_groups in A; [|exact O|exact E5]. eapply late_mixed in A; [|exact O|exact E6].
  intros i ty x v Hi V. pose proof (in_all _ _ _ _ A Hi) as B. rewrite V in B. exact (B v).
Qed.

Lemma enums_gone modules fuel include order f counter ts ts' : f_empty_enums f = true ->
  exec_optimizer modules fuel include order f counter ts = Some ts' -> no_empty_enums ts'.
Proof.
  intros F H. destruct (exec_pieces _ _ _ _ _ _ _ _ H) as (s0 & s1 & s2 & s3 & s4 & s5 & s6 & E1 & E2 & E3 & E4 & E5 & E6 & -> & _).
  assert (O : other q_enums) by (constructor; intros; exact Logic.I).
  assert (A : all_types q_enums (ps_opt s2)).
  { apply run_exec in E2 as [[_ E2]|[E2 _]]; [|congruence]. injection E2 as <-. cbn. unfold all_types, remove_empty_enums, replace_types. cbn [o_types].
    apply Forall_map. apply Forall_forall. intros [j t] _. cbn. destruct (empty_enum (m_variant t)) as [v|] eqn:E.
    - destruct (m_variant t); try discriminate. cbn in E. destruct (en_variants x); [|discriminate].
      destruct (base_ident (en_base x)); [|discriminate]. injection E as <-. exact Logic.I.
    - cbn. destruct (m_variant t); try exact Logic.I. cbn in E |- *. intros V. rewrite V in E.
      destruct (en_base x); cbn in E; [reflexivity|discriminate|discriminate]. }
  eapply late_dedup in A; [|apply dedup_enum; intros; exact Logic.I|exact E3].
  eapply late_unions in A; [|exact O|exact E4]. eapply late_groups in A; [|exact O|exact E5]. eapply late_mixed in A; [|exact O|exact E6].
  intros i ty x Hi V. pose proof (in_all _ _ _ _ A Hi) as B. rewrite V in B. exact B.
Qed.

(** * Unions *)
Lemma unions_gone modules fuel include order f counter ts ts' : f_empty_unions f = true ->
  exec_optimizer modules fuel include order f counter ts = Some ts' -> no_empty_unions ts'.
Proof.
  intros F H. destruct (exec_pieces _ _ _ _ _ _ _ _ H) as (s0 & s1 & s2 & s3 & s4 & s5 & s6 & E1 & E2 & E3 & E4 & E5 & E6 & -> & _).
  assert (O : other q_unions) by (constructor; intros; exact Logic.I).
  assert (A : all_types q_unions (ps_opt s4)).
  { apply run_exec in E4 as [[_ E4]|[E4 _]]; [|congruence]. injection E4 as <-. cbn. unfold all_types, remove_empty_unions, replace_types. cbn [o_types].
    apply Forall_map. apply Forall_forall. intros [j t] _. cbn. destruct (empty_union (m_variant t)) as [v|] eqn:E.
    - destruct (m_variant t); try discriminate. cbn in E. destruct (un_types x) as [|u [|u' l]]; [|injection E as <-; exact Logic.I|discriminate].
      destruct (base_ident (un_base x)); [|discriminate]. injection E as <-. exact Logic.I.
    - cbn. destruct (m_variant t); try exact Logic.I. cbn in E |- *. destruct (un_types x) as [|u [|u' l]]; [|discriminate|split; discriminate].
      split; [discriminate|]. intros _. destruct (un_base x); cbn in E; [reflexivity|discriminate|discriminate]. }
  eapply late_groups in A; [|exact O|exact E5]. eapply late_mixed in A; [|exact O|exact E6].
  intros i ty x Hi V. pose proof (in_all _ _ _ _ A Hi) as B. rewrite V in B. exact B.
Qed.

Lemma dedup_distinct f l : forall seen l', dedup_members f l seen = Some l' ->
  NoDup (map (fun t => f (ut_type t)) l') /\ forall t, In t l' -> exists r, f (ut_type t) = Some r /\ ~ In r seen.
Proof.
  induction l as [|t l IH]; intros seen l' H; cbn in H; [injection H as <-; split; [constructor|intros t []]|].
  destruct (f (ut_type t)) as [r|] eqn:E; [|discriminate]. destruct (contains r seen) eqn:C; [apply IH; exact H|].
  destruct (dedup_members f l (r :: seen)) as [k|] eqn:D; [|discriminate]. injection H as <-.
  destruct (IH _ _ D) as [N A]. split.
  - cbn. constructor; [|exact N]. intros X. apply in_map_iff in X as (u & X & Hu). destruct (A u Hu) as (r' & X' & NI).
    apply NI. left. congruence.
  - intros u [<-|Hu].
    + exists r. split; [exact E|]. intros X. apply contains_in in X. congruence.
    + destruct (A u Hu) as (r' & X & NI). exists r'. split; [exact X|]. intros Y. apply NI. right. exact Y.
Qed.

Lemma nodup_weaker {A B} (f : A -> B) (l : list A) (g : A -> option B) h : (forall a, g a = h (f a)) -> NoDup (map g l) -> NoDup (map f l).
Proof.
  intros E. induction l as [|a l IH]; cbn; intros N; [constructor|]. inversion N as [|x y NI N' Z]; subst. constructor; [|apply IH, N'].
  intros X. apply NI. apply in_map_iff in X as (b & X & Hb). apply in_map_iff. exists b. split; [rewrite !E, X; reflexivity|exact Hb].
Qed.

Lemma members_once modules fuel include order f counter ts ts' : f_duplicate_variants f = true ->
  exec_optimizer modules fuel include order f counter ts = Some ts' -> no_repeated_members ts'.
Proof.
  intros F H. destruct (exec_pieces _ _ _ _ _ _ _ _ H) as (s0 & s1 & s2 & s3 & s4 & s5 & s6 & E1 & E2 & E3 & E4 & E5 & E6 & -> & _).
  assert (O : other q_members) by (constructor; intros; exact Logic.I).
  assert (A : all_types q_members (ps_opt s3)).
  { apply run_exec in E3 as [[_ E3]|[E3 _]]; [|congruence]. cbn in E3.
    destruct (remove_duplicate_union_variants (ps_opt s2)) as [o1|] eqn:E; [|discriminate]. injection E3 as <-. cbn.
    unfold remove_duplicate_union_variants in E. destruct (mapM _ _) as [l|] eqn:M; [|discriminate]. injection E as <-.
    unfold all_types. cbn [o_types]. eapply mapM_all; [|exact M]. intros [j t] q _ D. cbn in D.
    destruct (m_variant t); cbn in D; try (injection D as <-; cbn; exact Logic.I).
    destruct (dedup_members (td_resolve (get_typedefs (ps_opt s2))) (un_types x) []) as [k|] eqn:DM; [|discriminate]. injection D as <-. cbn.
    apply dedup_distinct in DM as [N _]. revert N. apply (nodup_weaker ut_type k _ (td_resolve (get_typedefs (ps_opt s2)))). reflexivity. }
  eapply late_unions in A; [|exact O|exact E4]. eapply late_groups in A; [|exact O|exact E5]. eapply late_mixed in A; [|exact O|exact E6].
  intros i ty x Hi V. pose proof (in_all _ _ _ _ A Hi) as B. rewrite V in B. exact B.
Qed.

(** * The remembered type definitions *)
Lemma fine_run modules fuel l s s' : fine (ps_opt s) -> (forall include, ~ In (PReplaceAny include) l) ->
  run_passes modules fuel l s = Some s' -> fine (ps_opt s').
Proof.
  intros F N H. eapply passes_fine; [exact F| |exact H]. intros l1 include l2 s1 -> _. exfalso. apply (N include). apply in_or_app. right. left. reflexivity.
Qed.

Definition any_fine_state (s : pstate) : Prop := fine (ps_opt s) /\ o_typedefs (ps_opt s) = None.
Lemma replace_any_fine modules fuel include s s' : any_fine_state s -> run_pass modules fuel (PReplaceAny include) s = Some s' -> fine (ps_opt s').
Proof.
  intros [[ND _] C] H. injection H as <-. cbn [ps_opt]. split.
  - unfold replace_xs_any_type, with_types. cbn [o_types]. rewrite set_keys. exact ND.
  - unfold cache_ok, replace_xs_any_type, with_types. cbn [o_typedefs]. rewrite C. exact Logic.I.
Qed.
Lemma base_fine modules fuel fl s s' : any_fine_state s -> run_pass modules fuel (PUnrestrictedOf fl) s = Some s' -> any_fine_state s'.
Proof.
  intros [F C] H. cbn in H. destruct (use_unrestricted_base_type fl (ps_opt s)) as [o|] eqn:E; [|discriminate]. injection H as <-. cbn.
  split; [eapply unrestricted_fine; eassumption|]. unfold use_unrestricted_base_type in E. destruct (mapM _ _) as [l|]; [|discriminate].
  injection E as <-. cbn. rewrite C. destruct (existsb _ l); reflexivity.
Qed.

Definition early (f : flags) (include : string) : list pass := exec_base f ++ exec (f_replace_any f) (PReplaceAny include).
Lemma early_fine modules fuel f include before after s s' : any_fine_state s -> early f include = before ++ after ->
  run_passes modules fuel before s = Some s' -> fine (ps_opt s').
Proof.
  intros F E H. unfold early, exec_base, exec in E.
  destruct (f_base_complex f || f_base_simple f || f_base_enum f || f_base_union f), (f_replace_any f); cbn [app] in E;
    (destruct before as [|p before]; [injection H as <-; exact (proj1 F)|]); try discriminate E; injection E as <- E;
    cbn [run_passes] in H; match type of H with match ?r with _ => _ end = _ => destruct r as [s1|] eqn:R; [|discriminate] end.
  - apply base_fine in R; [|exact F]. destruct before as [|p before]; [injection H as <-; exact (proj1 R)|]. injection E as <- E.
    cbn [run_passes] in H. match type of H with match ?r with _ => _ end = _ => destruct r as [s2|] eqn:R2; [|discriminate] end.
    apply replace_any_fine in R2; [|exact R]. destruct before; [injection H as <-; exact R2|discriminate].
  - apply base_fine in R; [|exact F]. destruct before; [injection H as <-; exact (proj1 R)|discriminate].
  - apply replace_any_fine in R; [|exact F]. destruct before; [injection H as <-; exact R|discriminate].
Qed.

Lemma late_no_any f include : exists late, passes_of f include = early f include ++ late /\ forall i, ~ In (PReplaceAny i) late.
Proof.
  unfold passes_of, early. rewrite (app_assoc (exec_base f)). eexists. split; [reflexivity|]. intros i H.
  repeat (apply in_app_or in H as [H|H]; [unfold exec in H; match type of H with In _ (if ?b then _ else _) => destruct b end;
    [destruct H as [H|[]]; discriminate|destruct H]|]).
  unfold exec in H. match type of H with In _ (if ?b then _ else _) => destruct b end; [destruct H as [H|[]]; discriminate|destruct H].
Qed.

Lemma start_fine ts counter : NoDup (map fst ts) -> any_fine_state (PState (opt_new ts) counter).
Proof. intros ND. split; [split; [exact ND|exact Logic.I]|reflexivity]. Qed.

Lemma never_stale modules fuel f include before after counter ts s : NoDup (map fst ts) -> passes_of f include = before ++ after ->
  run_passes modules fuel before (PState (opt_new ts) counter) = Some s -> fine (ps_opt s).
Proof.
  intros ND E H. destruct (late_no_any f include) as (late & L & N). rewrite L in E. symmetry in E.
  apply app_eq_app in E as [l [[E1 E2]|[E1 E2]]].
  - subst before. rewrite run_app in H. destruct (run_passes modules fuel (early f include) _) as [s1|] eqn:R; [|discriminate].
    eapply fine_run; [| |exact H].
    + eapply (early_fine modules fuel f include (early f include) []); [apply start_fine, ND|symmetry; apply app_nil_r|exact R].
    + intros i X. apply (N i). rewrite E2. apply in_or_app. left. exact X.
  - eapply early_fine; [apply start_fine, ND|exact E1|exact H].
Qed.

(** * Members that stand for the same type *)
Lemma members_differ modules fuel include order f counter ts ts' : NoDup (map fst ts) ->
  f_duplicate_variants f = true -> f_empty_unions f = false ->
  exec_optimizer modules fuel include order f counter ts = Some ts' -> no_equal_members ts'.
Proof.
  intros ND F NF H. destruct (exec_pieces _ _ _ _ _ _ _ _ H) as (s0 & s1 & s2 & s3 & s4 & s5 & s6 & E1 & E2 & E3 & E4 & E5 & E6 & -> & l & L & E0).
  assert (F2 : fine (ps_opt s2)).
  { apply (never_stale modules fuel f include (l ++ exec (f_empty_enum_variants f) PEmptyVariants ++ exec (f_empty_enums f) PEmptyEnums)
      (exec (f_duplicate_variants f) PDuplicateVariants ++ exec (f_empty_unions f) PEmptyUnions ++ exec (f_merge_choice f) PCardinalities) counter ts);
      [exact ND|rewrite L, <- !app_assoc; reflexivity|].
    rewrite run_app, E0, run_app, E1. exact E2. }
  apply run_exec in E3 as [[_ E3]|[E3 _]]; [|congruence]. cbn in E3.
  destruct (remove_duplicate_union_variants (ps_opt s2)) as [o3|] eqn:D; [|discriminate]. injection E3 as <-.
  apply run_exec in E4 as [[E4 _]|[_ ->]]; [congruence|].
  pose proof (dedup_fine _ _ F2 D) as F3.
  assert (C3 : exists m, o_typedefs o3 = Some m /\
    all_types (fun v => match v with VUnion x => NoDup (map (fun t => td_resolve m (ut_type t)) (un_types x)) /\
      (forall t, In t (un_types x) -> exists r, td_resolve m (ut_type t) = Some r) | _ => True end) o3).
  { unfold remove_duplicate_union_variants in D. destruct (mapM _ _) as [k|] eqn:M; [|discriminate]. injection D as <-.
    exists (get_typedefs (ps_opt s2)). split; [reflexivity|]. unfold all_types. cbn [o_types].
    eapply mapM_all; [|exact M]. intros [j t] q _ X. cbn in X. destruct (m_variant t); cbn in X; try (injection X as <-; cbn; exact Logic.I).
    destruct (dedup_members (td_resolve (get_typedefs (ps_opt s2))) (un_types x) []) as [k'|] eqn:DM; [|discriminate]. injection X as <-. cbn.
    apply dedup_distinct in DM as [N A]. split; [exact N|]. intros u Hu. destruct (A u Hu) as (r & R & _). eauto. }
  destruct C3 as (m & C3 & A).
  assert (O : other (fun v => match v with VUnion x => NoDup (map (fun t => td_resolve m (ut_type t)) (un_types x)) /\
      (forall t, In t (un_types x) -> exists r, td_resolve m (ut_type t) = Some r) | _ => True end)) by (constructor; intros; exact Logic.I).
  pose proof (late_groups modules fuel _ O _ _ _ E5 A) as A5. pose proof (late_mixed modules fuel _ O _ _ _ _ E6 A5) as A6.
  assert (K5 : keeps o3 (ps_opt s5)).
  { apply run_exec in E5 as [[_ E5]|[_ ->]]; [|apply keeps_refl]. cbn in E5.
    destruct (merge_choice_cardinalities o3) as [o1| |] eqn:E; try discriminate. injection E5 as <-. cbn.
    eapply (fold_out_keeps merge_choice_cardinality); [apply cardinality_keeps|exact E]. }
  assert (K6 : keeps o3 (ps_opt s6)).
  { eapply keeps_trans; [exact K5|]. apply run_exec in E6 as [[_ E6]|[_ ->]]; [|apply keeps_refl]. cbn in E6.
    destruct (simplify_in_order _ (ps_opt s5)) as [o1| |] eqn:E; try discriminate. injection E6 as <-. cbn.
    eapply (fold_out_keeps simplify_mixed_type); [apply simplify_keeps|exact E]. }
  intros i ty x l1 a l2 b l3 e Hi V U EA EB. pose proof (in_all _ _ _ _ A6 Hi) as B. cbv beta in B. rewrite V in B. destruct B as [N R].
  destruct F3 as [_ CK]. unfold cache_ok in CK. rewrite C3 in CK.
  pose proof (same_steps_end _ _ (kp_steps _ _ K6)) as SE. rewrite SE in EA, EB.
  apply CK in EA. apply CK in EB. rewrite U in N. rewrite !map_app in N. cbn [map] in N. rewrite map_app in N. cbn [map] in N.
  apply NoDup_remove_2 in N. apply N. apply in_or_app. right. apply in_or_app. right. left. congruence.
Qed.

(** * No type is lost *)
Definition grows (o o' : optimizer) : Prop := incl (map fst (o_types o)) (map fst (o_types o')).
Lemma grows_refl o : grows o o.
Proof. intros x H. exact H. Qed.
Lemma grows_trans a b c : grows a b -> grows b c -> grows a c.
Proof. intros A B x H. apply B, A, H. Qed.
Lemma grows_same o o' : map fst (o_types o') = map fst (o_types o) -> grows o o'.
Proof. intros E x H. rewrite E. exact H. Qed.
Lemma set_grows o i v : grows o (with_types o (set_type i v (o_types o))).
Proof. apply grows_same. cbn. apply set_keys. Qed.

Lemma fold_opt_grows {E} (f : optimizer -> tident -> option (outcome E optimizer)) (h : option (outcome E optimizer) -> option (outcome E optimizer)) ids :
  (forall o i o', match f o i with Some (Err _) => h (Some (Ok o)) | r => r end = Some (Ok o') -> grows o o') ->
  forall o0 o', fold_left (fun acc i => match acc with
    | Some (Ok o) => match f o i with Some (Err _) => h (Some (Ok o)) | r => r end
    | r => r end) ids (Some (Ok o0)) = Some (Ok o') -> grows o0 o'.
Proof.
  intros F. induction ids as [|i ids IH]; cbn; intros o0 o' H; [injection H as <-; apply grows_refl|].
  destruct (match f o0 i with Some (Err _) => h (Some (Ok o0)) | r => r end) as [[o1| |]|] eqn:S.
  + eapply grows_trans; [exact (F _ _ _ S)|]. apply IH. exact H.
  + exfalso. clear -H. induction ids; cbn in H; [discriminate|auto].
  + exfalso. clear -H. induction ids; cbn in H; [discriminate|auto].
  + exfalso. clear -H. induction ids; cbn in H; [discriminate|auto].
Qed.
Lemma fold_out_grows {E} (f : optimizer -> tident -> outcome E optimizer) ids : (forall o i o', f o i = Ok o' -> grows o o') ->
  forall o o', fold_left (fun acc i => match acc with Ok o => match f o i with Err _ => Panic | r => r end | r => r end) ids (Ok o) = Ok o' ->
  grows o o'.
Proof.
  intros F. induction ids as [|i ids IH]; cbn; intros o o' H; [injection H as <-; apply grows_refl|].
  destruct (f o i) as [o1| |] eqn:S.
  - eapply grows_trans; [exact (F _ _ _ S)|]. apply IH. exact H.
  - exfalso. clear -H. induction ids; cbn in H; [discriminate|auto].
  - exfalso. clear -H. induction ids; cbn in H; [discriminate|auto].
Qed.

Lemma merge_dynamic_grows fuel o i o' : merge_dynamic_type fuel o i = Some (Ok o') -> grows o o'.
Proof.
  unfold merge_dynamic_type. intros H.
  repeat match type of H with
  | match ?x with _ => _ end = _ => destruct x; try discriminate
  | (let _ := _ in _) = _ => cbv zeta in H
  end; injection H as <-; first [apply set_grows|apply grows_refl].
Qed.
Lemma convert_grows o n i r : convert_dynamic o n i = Ok r -> grows o (fst r).
Proof.
  unfold convert_dynamic. destruct (lookup i (o_types o)) as [ty|]; [|discriminate].
  destruct (m_variant ty); try discriminate. destruct (content_name n) as [nm n'].
  destruct (lookup _ (set_type _ _ _)); [discriminate|]. intros [= <-]. cbn [fst]. unfold grows. cbn. rewrite map_fst_snoc, set_keys.
  intros y H. apply in_or_app. left. exact H.
Qed.
Lemma converts_grows ids : forall o n r,
  fold_left (fun acc i => match acc with Ok (o, n) => match convert_dynamic o n i with Err _ => Ok (o, n) | r => r end | r => r end)
    ids (Ok (o, n)) = Ok r -> grows o (fst r).
Proof.
  induction ids as [|i ids IH]; cbn; intros o n r H; [injection H as <-; apply grows_refl|].
  destruct (convert_dynamic o n i) as [[o1 n1]| |] eqn:S.
  - eapply grows_trans; [exact (convert_grows _ _ _ _ S)|]. exact (IH _ _ _ H).
  - exact (IH _ _ _ H).
  - exfalso. clear -H. induction ids; cbn in H; [discriminate|auto].
Qed.
Lemma flatten_complex_grows fuel o i o' : flatten_complex_type fuel o i = Some (Ok o') -> grows o o'.
Proof.
  unfold flatten_complex_type. destruct (lookup i (o_types o)) as [ty|]; [|discriminate].
  destruct (m_variant ty) as [| | | | | | | | |x|]; try discriminate. destruct (cx_content x) as [c|]; [|discriminate].
  destruct (flat_exec fuel (o_types o) c) as [[b| |]|]; try discriminate.
  destruct (into_variant b) as [[occ v]|]; [|intros [= <-]; apply grows_refl]. intros [= <-]. apply grows_same. cbn.
  destruct (get_variant _ i) as [[| | | | | | | | |x'|]|]; cbn; rewrite ?set_keys, ?set_entry_keys; reflexivity.
Qed.
Lemma flatten_union_grows fuel o i o' : flatten_union fuel o i = Some (Ok o') -> grows o o'.
Proof.
  unfold flatten_union. destruct (get_variant (o_types o) i) as [v|]; [|discriminate]. destruct v; try discriminate.
  destruct (flatten_impl _ _ _ _ _) as [[n l]|]; [|discriminate]. intros [= <-]. destruct (Nat.ltb 1 n); [apply set_grows|apply grows_refl].
Qed.
Lemma merge_enum_grows fuel o i o' : merge_enum_union fuel o i = Some (Ok o') -> grows o o'.
Proof.
  unfold merge_enum_union. destruct (get_variant (o_types o) i) as [v|]; [|discriminate]. destruct v; try discriminate.
  destruct (merge_impl _ _ _ _ _) as [[m|]|]; [| |discriminate]; intros [= <-]; [apply set_grows|apply grows_refl].
Qed.
Lemma cardinality_grows o i o' : merge_choice_cardinality o i = Ok o' -> grows o o'.
Proof.
  unfold merge_choice_cardinality. destruct (get_variant (o_types o) i) as [v|]; [|discriminate]. destruct v; try discriminate.
  destruct (cx_content x) as [c|]; [|discriminate]. destruct (get_variant (o_types o) c) as [vc|]; [|discriminate].
  destruct vc; try discriminate. destruct (get_variant _ i) as [vi|]; [|discriminate]. destruct vi; try discriminate.
  intros [= <-]. apply grows_same. cbn. rewrite !set_keys. reflexivity.
Qed.
Lemma simplify_grows o i o' : simplify_mixed_type o i = Ok o' -> grows o o'.
Proof.
  unfold simplify_mixed_type. intros H. repeat match type of H with
  | match ?x with _ => _ end = _ => destruct x; try discriminate
  | (let _ := _ in _) = _ => cbv zeta in H
  end; injection H as <-; apply grows_same; cbn; rewrite ?set_keys; reflexivity.
Qed.
Lemma mapM_fst (F : tident * mtype -> option (tident * mtype)) ts ts' : (forall p q, F p = Some q -> fst q = fst p) ->
  mapM F ts = Some ts' -> map fst ts' = map fst ts.
Proof.
  intros H. revert ts'; induction ts as [|p ts IH]; intros ts' E; cbn in E; [injection E as <-; reflexivity|].
  destruct (F p) as [q|] eqn:G; [|discriminate]. destruct (mapM F ts) as [l|]; [|discriminate]. injection E as <-. cbn.
  rewrite (H _ _ G), (IH l); reflexivity.
Qed.

Lemma pass_grows modules fuel p s s' : run_pass modules fuel p s = Some s' -> grows (ps_opt s) (ps_opt s').
Proof.
  intros H. destruct p; cbn [run_pass] in H;
    try (match type of H with option_map _ ?r = Some _ => destruct r as [x|] eqn:E; [|discriminate] end;
         injection H as <-; cbn [ps_opt]); try (injection H as <-; cbn [ps_opt]).
  - unfold use_unrestricted_base_type in E. destruct (mapM _ _) as [l|] eqn:M; [|discriminate]. injection E as <-. apply grows_same. cbn.
    assert (K : map (fun q => fst (fst q)) l = map fst (o_types (ps_opt s))).
    { revert l M. generalize (o_types (ps_opt s)). induction t as [|p t IH]; intros l M; cbn in M; [injection M as <-; reflexivity|].
      destruct (unrestricted_type fl (get_bases (ps_opt s)) p) as [u|]; [|discriminate]. cbn in M.
      destruct (mapM _ t) as [k|] eqn:MK; [|discriminate]. injection M as <-. cbn. rewrite (IH k eq_refl). reflexivity. }
    rewrite <- K. rewrite map_map. apply map_ext. intros [p [v|]]; reflexivity.
  - apply set_grows.
  - apply grows_same. unfold remove_empty_enum_variants. cbn. rewrite map_map. reflexivity.
  - apply grows_same. apply replace_keys_t.
  - unfold remove_duplicate_union_variants in E. destruct (mapM _ _) as [l|] eqn:M; [|discriminate]. injection E as <-. apply grows_same. cbn.
    eapply mapM_fst; [|exact M]. intros p q Q. cbv beta in Q. destruct (dedup_union _ _); [|discriminate]. injection Q as <-. reflexivity.
  - apply grows_same. apply replace_keys_t.
  - apply ended_some in E. eapply merge_dynamic_grows; exact E.
  - apply ended_some in E. eapply (fold_opt_grows (merge_dynamic_type fuel) (fun r => r)); [|exact E]. intros o1 i o2.
    destruct (merge_dynamic_type fuel o1 i) as [[y| |]|] eqn:X; intros Y; try discriminate; injection Y as <-; [eapply merge_dynamic_grows; exact X|apply grows_refl].
  - apply ok_some in E. eapply convert_grows; exact E.
  - apply ok_some in E. eapply converts_grows; exact E.
  - apply ended_some in E. eapply flatten_complex_grows; exact E.
  - apply ended_some in E. eapply (fold_opt_grows (flatten_complex_type fuel) (fun r => r)); [|exact E]. intros o1 i o2.
    destruct (flatten_complex_type fuel o1 i) as [[y| |]|] eqn:X; intros Y; try discriminate; injection Y as <-; [eapply flatten_complex_grows; exact X|apply grows_refl].
  - apply ended_some in E. eapply flatten_union_grows; exact E.
  - apply ended_some in E. eapply (fold_opt_grows (flatten_union fuel) (fun _ => Some Panic)); [|exact E]. intros o1 i o2.
    destruct (flatten_union fuel o1 i) as [[y| |]|] eqn:X; intros Y; try discriminate; injection Y as <-. eapply flatten_union_grows; exact X.
  - apply ended_some in E. eapply merge_enum_grows; exact E.
  - apply ended_some in E. eapply (fold_opt_grows (merge_enum_union fuel) (fun _ => Some Panic)); [|exact E]. intros o1 i o2.
    destruct (merge_enum_union fuel o1 i) as [[y| |]|] eqn:X; intros Y; try discriminate; injection Y as <-. eapply merge_enum_grows; exact X.
  - unfold resolve_typedefs in E. destruct (mapM _ _) as [l|] eqn:M; [|discriminate]. injection E as <-. apply grows_same. cbn.
    eapply mapM_fst; [|exact M]. intros p q Q. cbv beta in Q. destruct (retarget _ _); [|discriminate]. injection Q as <-. reflexivity.
  - unfold opt_remove_duplicates in E. destruct (remove_duplicates fuel _) as [l|] eqn:M; [|discriminate]. injection E as <-. apply grows_same. cbn.
    eapply dup_keys; exact M.
  - apply ok_some in E. eapply cardinality_grows; exact E.
  - apply ok_some in E. eapply (fold_out_grows merge_choice_cardinality); [apply cardinality_grows|exact E].
  - apply ok_some in E. eapply simplify_grows; exact E.
  - apply ok_some in E. eapply (fold_out_grows simplify_mixed_type); [apply simplify_grows|exact E].
Qed.

Lemma passes_grow modules fuel l : forall s s', run_passes modules fuel l s = Some s' -> grows (ps_opt s) (ps_opt s').
Proof.
  induction l as [|p l IH]; cbn; intros s s' H; [injection H as <-; apply grows_refl|].
  destruct (run_pass modules fuel p s) as [s1|] eqn:E; [|discriminate]. eapply grows_trans; [eapply pass_grows; exact E|apply IH; exact H].
Qed.

Lemma none_lost modules fuel include order f counter ts ts' :
  exec_optimizer modules fuel include order f counter ts = Some ts' -> incl (map fst ts) (map fst ts').
Proof.
  unfold exec_optimizer. destruct (run_passes modules fuel (passes_of f include) _) as [s|] eqn:E; [|discriminate].
  destruct (run_passes modules fuel (exec _ _) s) as [s'|] eqn:E'; [|discriminate]. intros [= <-].
  apply passes_grow in E. apply passes_grow in E'. intros x H. apply E', E. exact H.
Qed.
