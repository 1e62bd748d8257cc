From Verif Require Import DeModel DeSpec.
Local Open Scope string_scope.

(** ** Open elements as a stack (innermost first) *)

Definition stk_upd (s : list (bytes * list attr)) (e : event) : list (bytes * list attr) :=
  match e with
  | EStart n a => (n, a) :: s
  | EEnd _ => tl s
  | _ => s
  end.
Definition stk (evs : list event) s := fold_left stk_upd evs s.

Lemma skipn_tl {A} n (l : list A) : skipn n (tl l) = skipn (S n) l.
Proof. destruct l; [destruct n; reflexivity|reflexivity]. Qed.

Lemma stk_spec evs s :
  stk evs s = (rev (open_elements evs) ++ skipn (extra_ends evs) s)%list.
Proof.
  unfold stk. revert s; induction evs as [|e evs IH]; intros s; [reflexivity|].
  cbn [fold_left]. rewrite IH.
  destruct e; cbn [stk_upd open_elements extra_ends]; try reflexivity.
  - destruct (extra_ends evs) as [|n] eqn:E; cbn.
    + rewrite <- app_assoc. reflexivity.
    + reflexivity.
  - rewrite skipn_tl. reflexivity.
Qed.

Lemma stk_nil evs : stk evs [] = rev (open_elements evs).
Proof. rewrite stk_spec, skipn_nil, app_nil_r. reflexivity. Qed.

Lemma open_snoc evs e : rev (open_elements (evs ++ [e])) = stk_upd (rev (open_elements evs)) e.
Proof. rewrite <- !stk_nil. unfold stk. rewrite fold_left_app. reflexivity. Qed.

Lemma extra_app a b : extra_ends (a ++ b) = extra_ends a + (extra_ends b - length (open_elements a)).
Proof.
  induction a as [|e a IH]; cbn [app]; [cbn; lia|].
  destruct e; cbn [extra_ends open_elements]; rewrite ?IH; try reflexivity.
  destruct (extra_ends a) as [|n] eqn:E; cbn [length]; lia.
Qed.

Lemma open_app_len a b : length (open_elements (a ++ b)) =
  length (open_elements a) - extra_ends b + length (open_elements b).
Proof.
  rewrite <- (rev_length (open_elements (a ++ b))), <- stk_nil. unfold stk. rewrite fold_left_app.
  fold (stk a []). rewrite stk_nil. fold (stk b (rev (open_elements a))). rewrite stk_spec.
  rewrite app_length, rev_length, skipn_length, rev_length. lia.
Qed.

(** ** C10 *)

Lemma error_path_open lossy evs :
  error_path lossy evs = map (fun x => lossy (fst x)) (open_elements evs).
Proof.
  unfold error_path.
  enough (H : forall els s, els = map (fun x => lossy (fst x)) s ->
     fold_left (error_info_update lossy) evs els = map (fun x => lossy (fst x)) (stk evs s)).
  { rewrite (H [] [] eq_refl), stk_nil, map_rev, rev_involutive. reflexivity. }
  unfold stk. induction evs as [|e evs IH]; intros els s ->; [reflexivity|].
  cbn [fold_left]. apply IH. destruct e; cbn; try reflexivity.
  destruct s; reflexivity.
Qed.

(** ** C09 *)

Definition is_pending (evs : list event) : bool :=
  match rev evs with
  | EEmpty _ _ :: _ | EEnd _ :: _ => true
  | _ => false
  end.

(** Attribute lists of the elements containing the last event, innermost first. *)
Definition frames (evs : list event) : list (list attr) := map snd (rev (enclosing evs)).

Fixpoint binds (S0 : list (list attr)) : list binding :=
  match S0 with
  | [] => []
  | f :: rest =>
      (map (fun d => Binding (S (length rest)) (fst d) (snd d)) (tag_decls f) ++ binds rest)%list
  end.

Definition nsm (S0 : list (list attr)) : nsmap := nsmap_of (Resolver 0 (binds S0)).

Fixpoint cache_ok (S0 : list (list attr)) (c : list (nat * option nsmap)) : Prop :=
  match S0 with
  | [] => exists o, c = [(0, o)] /\ (o = None \/ o = Some (nsm []))
  | f :: rest =>
      if has_xmlns f then
        exists o c', c = (S (length rest), o) :: c' /\ (o = None \/ o = Some (nsm S0)) /\ cache_ok rest c'
      else cache_ok rest c
  end.

Record HInv (S0 : list (list attr)) (pend : bool) (h : dhelper) : Prop := {
  hi_level : d_level h = length S0;
  hi_pend : d_pending h = pend;
  hi_res : d_res h = Resolver (length S0) (binds S0);
  hi_cache : cache_ok S0 (d_cache h)
}.

Lemma binds_level S0 : Forall (fun b => b_level b <= length S0) (binds S0).
Proof.
  induction S0 as [|f rest IH]; cbn; [constructor|]. apply Forall_app; split.
  - apply Forall_forall. intros b Hb. apply in_map_iff in Hb. destruct Hb as (d & <- & _). cbn; lia.
  - eapply Forall_impl; [|exact IH]. cbn; intros; lia.
Qed.

Lemma drop_bindings_stop n bs : Forall (fun b => b_level b <= n) bs -> drop_bindings n bs = bs.
Proof.
  intros H; destruct bs as [|b bs]; cbn; [reflexivity|]. inversion H; subst.
  destruct (Nat.ltb_spec n (b_level b)); [lia|reflexivity].
Qed.

Lemma drop_bindings_frame (l : list (option bytes * bytes)) n bs :
  Forall (fun b => b_level b <= n) bs ->
  drop_bindings n (map (fun d => Binding (S n) (fst d) (snd d)) l ++ bs) = bs.
Proof.
  intros H; induction l as [|d l IH]; cbn; [apply drop_bindings_stop, H|].
  destruct (Nat.ltb_spec n (S n)); [exact IH|lia].
Qed.

Lemma cache_levels S0 c : cache_ok S0 c -> Forall (fun x => fst x <= length S0) c /\ c <> [].
Proof.
  revert c; induction S0 as [|f rest IH]; cbn; intros c H.
  - destruct H as (o & -> & _). split; [repeat constructor|discriminate].
  - destruct (has_xmlns f).
    + destruct H as (o & c' & -> & _ & H). destruct (IH _ H) as [H1 _]. split; [|discriminate].
      constructor; [cbn; lia|]. eapply Forall_impl; [|exact H1]. cbn; intros; lia.
    + destruct (IH _ H) as [H1 H2]. split; [|exact H2].
      eapply Forall_impl; [|exact H1]. cbn; intros; lia.
Qed.

Lemma drop_cache_stop n c : Forall (fun x : nat * option nsmap => fst x <= n) c -> drop_cache n c = c.
Proof.
  intros H; destruct c as [|b bs]; cbn; [reflexivity|]. inversion H; subst.
  destruct (Nat.ltb_spec n (fst b)); [lia|reflexivity].
Qed.

Lemma starts_with_decl k p : xmlns_decl k = Some p -> starts_with "xmlns" k = true.
Proof. unfold xmlns_decl. destruct (starts_with "xmlns" k); [reflexivity|discriminate]. Qed.

Lemma no_xmlns_decls a : has_xmlns a = false -> tag_decls a = [].
Proof.
  unfold has_xmlns, tag_decls; induction a as [|[k v] a IH]; cbn [existsb flat_map rev fst snd]; [reflexivity|].
  intros H. apply orb_false_iff in H. destruct H as [H1 H2].
  destruct (xmlns_decl k) as [p|] eqn:E.
  - apply starts_with_decl in E. congruence.
  - apply IH, H2.
Qed.

Lemma nsm_skip f rest : has_xmlns f = false -> nsm (f :: rest) = nsm rest.
Proof. intros H. unfold nsm. cbn [binds]. rewrite (no_xmlns_decls f H). reflexivity. Qed.

Lemma push_attrs_binds l attrs bs bs' : push_attrs l bs attrs = Some bs' ->
  bs' = (map (fun d => Binding l (fst d) (snd d)) (tag_decls attrs) ++ bs)%list.
Proof.
  unfold tag_decls. revert bs; induction attrs as [|[k v] attrs IH]; cbn; intros bs H; [congruence|].
  rewrite rev_app_distr, map_app, <- app_assoc.
  destruct (xmlns_decl k) as [[p|]|]; cbn [opt_eqb].
  - destruct (String.eqb p "xml").
    + destruct (String.eqb v XML_NS); [|discriminate]. apply IH, H.
    + destruct (String.eqb p "xmlns"); [discriminate|].
      destruct (String.eqb v XML_NS); [discriminate|].
      destruct (String.eqb v XMLNS_NS); [discriminate|]. cbn. apply (IH _ H).
  - cbn. apply (IH _ H).
  - cbn. apply (IH _ H).
Qed.

Lemma hinv_pop S0 h : HInv S0 true h -> S0 <> [] -> HInv (tl S0) false (dh_pop h).
Proof.
  intros [Hl Hp Hr Hc] Hne. destruct S0 as [|f rest]; [congruence|]. cbn [tl].
  unfold dh_pop. rewrite Hp. constructor; cbn [d_level d_pending d_res d_cache].
  - rewrite Hl; reflexivity.
  - reflexivity.
  - rewrite Hr. unfold resolver_pop. cbn [r_level r_bindings length pred]. f_equal.
    cbn [binds]. apply drop_bindings_frame, binds_level.
  - rewrite Hl. cbn [length pred]. cbn [cache_ok] in Hc. destruct (has_xmlns f).
    + destruct Hc as (o & c' & -> & _ & Hc). cbn. destruct (Nat.ltb_spec (length rest) (S (length rest))); [|lia].
      rewrite drop_cache_stop; [exact Hc|apply cache_levels, Hc].
    + rewrite drop_cache_stop; [exact Hc|apply cache_levels, Hc].
Qed.

Lemma hinv_nopop S0 h : HInv S0 false h -> dh_pop h = h.
Proof. intros [_ Hp _ _]. unfold dh_pop. rewrite Hp. reflexivity. Qed.

Lemma hinv_enter S0 h a b h' : HInv S0 false h -> dh_enter h a b = Some h' -> HInv (a :: S0) b h'.
Proof.
  intros [Hl Hp Hr Hc] H. unfold dh_enter, resolver_push in H.
  destruct (push_attrs _ _ a) as [bs|] eqn:E; [|discriminate]. injection H as <-.
  apply push_attrs_binds in E. rewrite Hr in E. cbn [r_level r_bindings] in E.
  constructor; cbn [d_level d_pending d_res d_cache].
  - cbn [length]; lia.
  - reflexivity.
  - rewrite Hr. cbn [r_level length]. f_equal. exact E.
  - cbn [cache_ok]. destruct (has_xmlns a); [|exact Hc].
    exists None, (d_cache h). rewrite Hl. auto.
Qed.

Lemma hinv_ask S0 b h : HInv S0 b h ->
  fst (namespaces h) = nsm S0 /\ HInv S0 b (snd (namespaces h)).
Proof.
  intros [Hl Hp Hr Hc].
  assert (HC : exists l o c, d_cache h = (l, o) :: c /\ (o = None \/ o = Some (nsm S0)) /\
     cache_ok S0 ((l, Some (nsm S0)) :: c)).
  { clear Hl Hp Hr. revert Hc. generalize (d_cache h) as c0.
    induction S0 as [|f rest IH]; cbn [cache_ok]; intros c0 H.
    - destruct H as (o & -> & Ho). exists 0, o, []. repeat split; auto. exists (Some (nsm [])); auto.
    - destruct (has_xmlns f) eqn:E.
      + destruct H as (o & c' & -> & Ho & H). exists (S (length rest)), o, c'. repeat split; auto.
        exists (Some (nsm (f :: rest))), c'. auto.
      + rewrite (nsm_skip f rest E). apply IH, H. }
  destruct HC as (l & o & c & E & Ho & HC). unfold namespaces. rewrite E.
  destruct Ho as [->| ->].
  - assert (EN : nsmap_of (d_res h) = nsm S0) by (rewrite Hr; reflexivity).
    cbn [fst snd]. rewrite EN. split; [reflexivity|]. constructor; cbn; auto.
  - cbn [fst snd]. split; [reflexivity|]. constructor; auto.
Qed.

(** Frames while / after processing a history. *)
Definition open_frames (evs : list event) : list (list attr) := map snd (rev (open_elements evs)).

Lemma frames_snoc evs e : frames (evs ++ [e]) =
  match e with
  | EStart _ a | EEmpty _ a => a :: open_frames evs
  | _ => open_frames evs
  end.
Proof.
  unfold frames, enclosing, open_frames. rewrite rev_app_distr. cbn [rev app].
  rewrite rev_involutive. destruct e; rewrite ?rev_app_distr, ?app_nil_r; reflexivity.
Qed.

Lemma open_frames_of evs : well_nested evs ->
  open_frames evs = (if is_pending evs then tl (frames evs) else frames evs) /\
  (is_pending evs = true -> frames evs <> []).
Proof.
  intros HW. destruct evs as [|x evs0]; [split; [reflexivity|discriminate]|].
  destruct (@exists_last _ (x :: evs0)) as (evs & e & E); [discriminate|]. rewrite E in *. clear E x evs0.
  rewrite frames_snoc. unfold is_pending. rewrite rev_app_distr. cbn [rev app].
  unfold open_frames at 1. rewrite open_snoc.
  destruct e; cbn [stk_upd tl]; try (split; [reflexivity|discriminate]).
  split.
  - unfold open_frames. destruct (rev (open_elements evs)); reflexivity.
  - intros _ HE. unfold open_frames in HE. apply map_eq_nil in HE.
    specialize (HW (evs ++ [EEnd name])%list [] (eq_sym (app_nil_r _))).
    rewrite extra_app in HW. cbn [extra_ends] in HW.
    rewrite <- (rev_length (open_elements evs)), HE in HW. cbn in HW. lia.
Qed.

Lemma well_nested_prefix a b : well_nested (a ++ b) -> well_nested a.
Proof. intros H pre post ->. apply (H pre (post ++ b)%list). rewrite app_assoc. reflexivity. Qed.

Lemma hinv_event evs h e h' : well_nested evs ->
  HInv (frames evs) (is_pending evs) h -> dh_event h e = Some h' ->
  HInv (frames (evs ++ [e])) (is_pending (evs ++ [e])) h'.
Proof.
  intros HW HI HE.
  assert (HP : HInv (open_frames evs) false (dh_pop h)).
  { destruct (open_frames_of evs HW) as [Ho Hne]. rewrite Ho. destruct (is_pending evs).
    - apply hinv_pop; [exact HI|apply Hne; reflexivity].
    - rewrite (hinv_nopop _ _ HI). exact HI. }
  rewrite frames_snoc. unfold is_pending. rewrite rev_app_distr. cbn [rev app].
  unfold dh_event in HE. destruct e; try (injection HE as <-; exact HP).
  - apply (hinv_enter _ _ _ _ _ HP HE).
  - apply (hinv_enter _ _ _ _ _ HP HE).
  - injection HE as <-. destruct HP as [H1 H2 H3 H4]. constructor; cbn; auto.
Qed.

Lemma hinv_default : HInv (frames []) (is_pending []) dhelper_default.
Proof. constructor; cbn; auto. exists None; auto. Qed.

Lemma hinv_run_from ops : forall evs h h', HInv (frames evs) (is_pending evs) h ->
  well_nested (evs ++ events_of ops) -> dh_run h ops = Some h' ->
  HInv (frames (evs ++ events_of ops)) (is_pending (evs ++ events_of ops)) h'.
Proof.
  induction ops as [|o ops IH]; intros evs h h' HI HW HR; cbn [dh_run] in HR.
  - cbn. rewrite app_nil_r. injection HR as <-. exact HI.
  - destruct (dh_step h o) as [h1|] eqn:E; [|discriminate].
    destruct o as [e|]; cbn [dh_step] in E.
    + change (events_of (DEvent e :: ops)) with (e :: events_of ops) in *. assert (EA : (evs ++ e :: events_of ops = (evs ++ [e]) ++ events_of ops)%list)
        by (rewrite <- app_assoc; reflexivity).
      rewrite EA in HW |- *.
      apply (IH (evs ++ [e])%list h1 h'); [|exact HW|exact HR].
      apply (hinv_event evs h); [|exact HI|exact E].
      apply well_nested_prefix, well_nested_prefix in HW. exact HW.
    + injection E as <-. apply (IH evs (snd (namespaces h)) h'); [|exact HW|exact HR].
      apply hinv_ask, HI.
Qed.

Lemma hinv_run ops h : well_nested (events_of ops) -> dh_run dhelper_default ops = Some h ->
  HInv (frames (events_of ops)) (is_pending (events_of ops)) h.
Proof. intros HW HR. apply (hinv_run_from ops [] dhelper_default h hinv_default HW HR). Qed.

(** bindings() *)

Lemma opt_eqb_false a b : opt_eqb a b = false <-> a <> b.
Proof.
  split; intros H.
  - intros ->. rewrite opt_eqb_refl in H. discriminate.
  - destruct (opt_eqb a b) eqn:E; [|reflexivity]. apply opt_eqb_eq in E. congruence.
Qed.

Lemma in_bindings_of bs p v : In (p, v) (bindings_of bs) <-> find_prefix p bs = Some v /\ v <> "".
Proof.
  induction bs as [|b bs IH]; cbn [bindings_of find_prefix].
  - split; [intros []|intros [H _]; discriminate].
  - rewrite in_app_iff, filter_In, IH. cbn [fst].
    destruct (opt_eqb (b_prefix b) p) eqn:E.
    + apply opt_eqb_eq in E. rewrite <- E, opt_eqb_refl. cbn [negb].
      split.
      * intros [[_ H]|H]; [discriminate|]. destruct (b_value b) as [|c s]; [destruct H|].
        destruct H as [H|[]]. injection H as <-. split; [reflexivity|discriminate].
      * intros [H1 H2]. injection H1 as <-. right. destruct (b_value b) as [|c s]; [congruence|].
        left; reflexivity.
    + apply opt_eqb_false in E.
      assert (E' : opt_eqb p (b_prefix b) = false) by (apply opt_eqb_false; congruence).
      rewrite E'. cbn [negb]. split.
      * intros [[H _]|H]; [exact H|]. destruct (b_value b) as [|c s]; [destruct H|].
        destruct H as [H|[]]. congruence.
      * intros H. left; auto.
Qed.

Lemma nodup_bindings_of bs : NoDup (map fst (bindings_of bs)).
Proof.
  induction bs as [|b bs IH]; cbn [bindings_of]; [constructor|].
  rewrite map_app.
  assert (HF : NoDup (map fst (filter (fun x => negb (opt_eqb (fst x) (b_prefix b))) (bindings_of bs)))).
  { clear - IH. induction (bindings_of bs) as [|x l IHl]; cbn; [constructor|].
    inversion IH; subst. destruct (negb _); cbn; [|apply IHl; assumption].
    constructor; [|apply IHl; assumption]. intros HI. apply H1.
    apply in_map_iff in HI. destruct HI as (y & Hy & HI). apply filter_In in HI. apply in_map_iff. exists y; tauto. }
  destruct (b_value b) as [|c s]; cbn; [rewrite app_nil_r; exact HF|].
  assert (HN : ~ In (b_prefix b) (map fst (filter (fun x => negb (opt_eqb (fst x) (b_prefix b))) (bindings_of bs)))).
  { intros HI. apply in_map_iff in HI. destruct HI as (y & Hy & HI). apply filter_In in HI.
    destruct HI as [_ HI]. rewrite Hy, opt_eqb_refl in HI. discriminate. }
  clear - HF HN. induction (map fst (filter (fun x => negb (opt_eqb (fst x) (b_prefix b))) (bindings_of bs))) as [|x l IHl]; cbn.
  - repeat constructor; auto.
  - inversion HF; subst. constructor; [|apply IHl; [assumption|intros H; apply HN; right; exact H]].
    rewrite in_app_iff. intros [H|[H|[]]]; [tauto|]. apply HN; left; congruence.
Qed.

Lemma find_prefix_app p a b : find_prefix p (a ++ b) =
  match find_prefix p a with Some v => Some v | None => find_prefix p b end.
Proof. induction a as [|x a IH]; cbn; [reflexivity|]. destruct (opt_eqb _ _); [reflexivity|exact IH]. Qed.

Lemma find_prefix_decls p n l :
  find_prefix p (map (fun d => Binding n (fst d) (snd d)) l) = lookup_decl p l.
Proof. induction l as [|[q v] l IH]; cbn; [reflexivity|]. destruct (opt_eqb q p); [reflexivity|exact IH]. Qed.

Lemma in_scope_app p a b : in_scope p (a ++ b) =
  match in_scope p b with Some v => Some v | None => in_scope p a end.
Proof.
  induction a as [|[n x] a IH]; cbn; [destruct (in_scope p b); reflexivity|].
  rewrite IH. destruct (in_scope p b); reflexivity.
Qed.

Lemma find_prefix_scope p els : find_prefix p (binds (map snd (rev els))) = in_scope p els.
Proof.
  induction els as [|[n a] els IH] using rev_ind; [reflexivity|].
  rewrite rev_app_distr. cbn [rev app map binds snd]. rewrite find_prefix_app, find_prefix_decls, IH.
  rewrite in_scope_app. reflexivity.
Qed.

Lemma filter_prefix_idem p : filter_prefix (filter_prefix p) = filter_prefix p.
Proof. destruct p as [[|c s]|]; reflexivity. Qed.

Lemma binds_filtered S0 b : In b (binds S0) -> b_prefix b <> Some "".
Proof.
  induction S0 as [|f rest IH]; cbn; [intros []|]. intros H. apply in_app_or in H. destruct H as [H|H]; [|apply IH, H].
  apply in_map_iff in H. destruct H as ([q v] & <- & H). cbn. unfold tag_decls in H.
  apply in_rev in H. apply in_flat_map in H. destruct H as ([k w] & _ & H). cbn in H.
  destruct (xmlns_decl k) as [p|]; [|destruct H].
  destruct (opt_eqb p (Some "xml")); [destruct H|]. destruct H as [H|[]]. injection H as <- _.
  destruct p as [[|c s]|]; discriminate.
Qed.

Lemma find_prefix_in p bs v : find_prefix p bs = Some v -> exists b, In b bs /\ b_prefix b = p.
Proof.
  induction bs as [|b bs IH]; cbn; [discriminate|].
  destruct (opt_eqb (b_prefix b) p) eqn:E; intros H.
  - apply opt_eqb_eq in E. exists b; auto.
  - destruct (IH H) as (b' & H1 & H2). exists b'; auto.
Qed.

Lemma nsm_spec els k ns : In (k, ns) (nsm (map snd (rev els))) <-> bound (filter_prefix (Some k)) ns els.
Proof.
  unfold nsm, nsmap_of, bound. cbn [r_bindings]. rewrite in_map_iff. split.
  - intros ([p v] & E & HI). injection E as <- <-. pose proof HI as HI'. apply in_bindings_of in HI'.
    destruct HI' as [HF Hne]. destruct (find_prefix_in _ _ _ HF) as (b & Hb & Hp).
    pose proof (binds_filtered _ _ Hb) as Hf. rewrite Hp in Hf.
    rewrite find_prefix_scope in HF. split; [|exact Hne].
    destruct p as [[|c s]|]; [congruence|exact HF|exact HF].
  - intros [HF Hne]. exists (filter_prefix (Some k), ns). split.
    + destruct k; reflexivity.
    + apply in_bindings_of. rewrite find_prefix_scope. auto.
Qed.

Lemma nsm_nodup S0 : NoDup (map fst (nsm S0)).
Proof.
  unfold nsm, nsmap_of. cbn [r_bindings]. rewrite map_map. cbn [fst].
  pose proof (nodup_bindings_of (binds S0)) as HN.
  assert (HF : forall x, In x (bindings_of (binds S0)) -> fst x <> Some "").
  { intros [p v] HI. apply in_bindings_of in HI. destruct HI as [HF _].
    destruct (find_prefix_in _ _ _ HF) as (b & Hb & Hp). cbn. rewrite <- Hp. apply (binds_filtered _ _ Hb). }
  induction (bindings_of (binds S0)) as [|x l IH]; cbn; [constructor|].
  inversion HN; subst. constructor; [|apply IH; [assumption|intros y Hy; apply HF; right; exact Hy]].
  intros HI. apply in_map_iff in HI. destruct HI as (y & Hy & HI). apply H1. apply in_map_iff. exists y. split; [|exact HI].
  pose proof (HF x (or_introl eq_refl)) as Hx. pose proof (HF y (or_intror HI)) as Hy'.
  clear - Hx Hy Hy'. destruct x as [[[|c s]|] vx], y as [[[|d t]|] vy]; cbn in *; congruence.
Qed.

Lemma namespaces_correct ops h : well_nested (events_of ops) -> dh_run dhelper_default ops = Some h ->
  (forall k ns, In (k, ns) (fst (namespaces h)) <-> bound (filter_prefix (Some k)) ns (enclosing (events_of ops))) /\
  NoDup (map fst (fst (namespaces h))).
Proof.
  intros HW HR. destruct (hinv_ask _ _ _ (hinv_run ops h HW HR)) as [E _]. rewrite E.
  split; [apply nsm_spec|apply nsm_nodup].
Qed.

(** resolve() agrees with the same scope *)
Lemma resolve_correct ops h p local attribute : well_nested (events_of ops) -> dh_run dhelper_default ops = Some h ->
  split_colon (p ++ ":" ++ local) = Some (p, local) -> p <> "xml" -> p <> "xmlns" ->
  forall ns, dh_resolve (d_res h) (p ++ ":" ++ local) attribute = (RBound ns, local) <->
     bound (Some p) ns (enclosing (events_of ops)).
Proof.
  intros HW HR HS H1 H2 ns. destruct (hinv_run ops h HW HR) as [_ _ Hr _].
  unfold dh_resolve, resolve. rewrite HS. apply String.eqb_neq in H1, H2. rewrite H1, H2, Hr. cbn [r_bindings].
  unfold frames. rewrite find_prefix_scope. unfold bound.
  destruct (in_scope (Some p) (enclosing (events_of ops))) as [[|c s]|]; split; intros H.
  - discriminate.
  - destruct H as [H Hne]. congruence.
  - split; [congruence|]. injection H as <-. discriminate.
  - destruct H as [H _]. congruence.
  - discriminate.
  - destruct H; discriminate.
Qed.

Lemma resolve_plain_correct ops h name : well_nested (events_of ops) -> dh_run dhelper_default ops = Some h ->
  split_colon name = None ->
  (forall ns, dh_resolve (d_res h) name false = (RBound ns, name) <-> bound None ns (enclosing (events_of ops))) /\
  dh_resolve (d_res h) name true = (RUnbound, name).
Proof.
  intros HW HR HS. destruct (hinv_run ops h HW HR) as [_ _ Hr _].
  unfold dh_resolve, resolve. rewrite HS, Hr. cbn [r_bindings negb]. split; [|reflexivity]. intros ns.
  unfold frames. rewrite find_prefix_scope. unfold bound.
  destruct (in_scope None (enclosing (events_of ops))) as [[|c s]|]; split; intros H; try discriminate.
  - destruct H as [H Hne]. congruence.
  - split; [congruence|]. injection H as <-. discriminate.
  - destruct H as [H _]. congruence.
  - destruct H; discriminate.
Qed.

(** ** C08 *)

Definition pop1 (h : dhelper) : dhelper :=
  DHelper (pred (d_level h)) (resolver_pop (d_res h)) (drop_cache (pred (d_level h)) (d_cache h)) false.

Lemma dh_pop_eq h : dh_pop h = if d_pending h then pop1 h else h.
Proof. reflexivity. Qed.

Lemma pop1_enter S0 h a b h1 : HInv S0 false h -> dh_enter h a b = Some h1 -> pop1 h1 = h.
Proof.
  intros [Hl Hp Hr Hc] H. unfold dh_enter, resolver_push in H.
  destruct (push_attrs _ _ a) as [bs|] eqn:E; [|discriminate]. injection H as <-.
  apply push_attrs_binds in E. rewrite Hr in E. cbn [r_level r_bindings] in E.
  unfold pop1. destruct h as [l r c p]; cbn in *. subst l p r. cbn [r_level]. unfold resolver_pop. cbn [r_level r_bindings pred].
  f_equal.
  - f_equal. subst bs. apply drop_bindings_frame, binds_level.
  - destruct (has_xmlns a); cbn.
    + destruct (Nat.ltb_spec (length S0) (S (length S0))); [|lia].
      apply drop_cache_stop, cache_levels, Hc.
    + apply drop_cache_stop, cache_levels, Hc.
Qed.

Lemma namespaces_fields h : d_level (snd (namespaces h)) = d_level h /\
  d_res (snd (namespaces h)) = d_res h /\ d_pending (snd (namespaces h)) = d_pending h.
Proof. unfold namespaces. destruct (d_cache h) as [|[l [m|]] c]; cbn; auto. Qed.

Lemma pop1_ask S0 h a b h1 : HInv S0 false h -> dh_enter h a b = Some h1 ->
  helper_ok h (pop1 (snd (namespaces h1))).
Proof.
  intros HI HE. pose proof (pop1_enter _ _ _ _ _ HI HE) as HP.
  pose proof (hinv_enter _ _ _ _ _ HI HE) as HI1.
  unfold dh_enter, resolver_push in HE.
  destruct (push_attrs _ _ a) as [bs|] eqn:E; [|discriminate]. injection HE as HE. rewrite <- HE in *. clear HE h1.
  destruct HI as [Hl Hp Hr Hc]. pose proof (cache_levels _ _ Hc) as [HL HNE].
  unfold namespaces. cbn [d_cache] in *. destruct (has_xmlns a) eqn:EX.
  - left. etransitivity; [|exact HP]. unfold pop1. cbn.
    destruct (Nat.ltb_spec (d_level h) (S (d_level h))); [|lia]. reflexivity.
  - destruct (d_cache h) as [|[l [m|]] c] eqn:EC; [congruence| |].
    + left. exact HP.
    + right. unfold namespaces. rewrite EC. cbn [snd]. unfold pop1. cbn [d_level d_res d_cache d_pending pred].
      unfold pop1 in HP. cbn [d_level d_res d_cache d_pending pred] in HP.
      assert (HD : drop_cache (d_level h) ((l, None) :: c) = (l, None) :: c).
      { rewrite <- EC. apply drop_cache_stop. rewrite EC, Hl. exact HL. }
      inversion HL as [|x y Hl0 Hl1]; subst. cbn [fst] in Hl0.
      assert (HR : d_res h = resolver_pop (Resolver (S (r_level (d_res h))) bs)) by (pose proof (f_equal d_res HP) as HQ; cbn in HQ; symmetry; exact HQ).
      rewrite <- HR, Hp. f_equal.
      * cbn. destruct (Nat.ltb_spec (d_level h) l); [lia|].
        do 3 f_equal. destruct HI1 as [_ _ Hr1 _]. cbn [d_res] in Hr1. unfold nsmap_of.
        apply push_attrs_binds in E. rewrite (no_xmlns_decls a EX) in E. cbn in E. cbn [r_bindings].
        rewrite E. reflexivity.
Qed.

Fixpoint iter_pop (k : nat) (h : dhelper) : dhelper :=
  match k with 0 => h | S k' => iter_pop k' (pop1 h) end.

Lemma app_split {A} (a b c d : list A) : (a ++ b = c ++ d)%list ->
  (exists q, a = c ++ q /\ d = q ++ b)%list \/ (exists q, c = a ++ q /\ b = q ++ d)%list.
Proof.
  revert c; induction a as [|x a IH]; cbn; intros c E; [right; exists c; auto|].
  destruct c as [|y c]; cbn in E; [left; exists (x :: a); auto|].
  injection E as -> E. destruct (IH c E) as [(q & -> & ->)|(q & -> & ->)]; [left|right]; exists q; auto.
Qed.

Lemma well_nested_app a b : well_nested a -> well_nested b -> well_nested (a ++ b).
Proof.
  intros Ha Hb pre post E. apply app_split in E. destruct E as [(q & Ea & _)|(q & -> & Eb)].
  - apply (Ha _ _ Ea).
  - rewrite extra_app, (Ha a [] (eq_sym (app_nil_r a))), (Hb q post Eb). lia.
Qed.

Lemma balanced_restores evs : forall evs0 h h',
  well_nested evs0 -> HInv (frames evs0) (is_pending evs0) h ->
  well_nested evs -> dh_run h (map DEvent evs) = Some h' ->
  iter_pop (length (open_elements evs)) (dh_pop h') = dh_pop h.
Proof.
  induction evs as [|e evs IH] using rev_ind; intros evs0 h h' HW0 HI HW HR.
  - injection HR as <-. reflexivity.
  - pose proof (well_nested_prefix _ _ HW) as HWp.
    rewrite map_app in HR.
    assert (HR' : exists h1, dh_run h (map DEvent evs) = Some h1 /\ dh_event h1 e = Some h').
    { clear - HR. revert h HR. induction evs as [|x evs IH]; cbn; intros h HR.
      - exists h. destruct (dh_event h e); [auto|discriminate].
      - destruct (dh_event h x); [|discriminate]. apply IH, HR. }
    destruct HR' as (h1 & HR1 & HE).
    specialize (IH evs0 h h1 HW0 HI HWp HR1).
    assert (HEV : events_of (map DEvent evs) = evs).
    { clear. induction evs as [|x evs IH]; cbn; [reflexivity|]. f_equal. exact IH. }
    assert (HWa : well_nested (evs0 ++ evs)).
    { apply well_nested_app; assumption. }
    pose proof (hinv_run_from (map DEvent evs) evs0 h h1 HI) as HI1. rewrite HEV in HI1.
    specialize (HI1 HWa HR1).
    assert (HP : HInv (open_frames (evs0 ++ evs)) false (dh_pop h1)).
    { destruct (open_frames_of _ HWa) as [Ho Hne]. rewrite Ho. destruct (is_pending (evs0 ++ evs)).
      - apply hinv_pop; [exact HI1|apply Hne; reflexivity].
      - rewrite (hinv_nopop _ _ HI1). exact HI1. }
    rewrite <- (rev_length (open_elements (evs ++ [e]))), open_snoc.
    unfold dh_event in HE. destruct e; cbn [stk_upd];
      try (injection HE as <-; rewrite (hinv_nopop _ _ HP), rev_length; exact IH).
    + pose proof (pop1_enter _ _ _ _ _ HP HE) as HQ. pose proof (hinv_enter _ _ _ _ _ HP HE) as HQ1.
      rewrite (hinv_nopop _ _ HQ1). cbn [length iter_pop]. rewrite HQ, rev_length. exact IH.
    + pose proof (pop1_enter _ _ _ _ _ HP HE) as HQ. pose proof (hinv_enter _ _ _ _ _ HP HE) as [_ HQ1 _ _].
      rewrite dh_pop_eq, HQ1, HQ, rev_length. exact IH.
    + injection HE as <-. rewrite dh_pop_eq. cbn [d_pending].
      specialize (HW (evs ++ [EEnd name])%list [] (eq_sym (app_nil_r _))).
      rewrite extra_app in HW. cbn [extra_ends] in HW.
      rewrite <- (rev_length (open_elements evs)) in HW, IH.
      destruct (rev (open_elements evs)) as [|x l]; cbn [length] in *; [lia|]. cbn [tl iter_pop] in *.
      exact IH.
Qed.

Lemma helper_ok_refl h : helper_ok h h.
Proof. left; reflexivity. Qed.

Lemma hinv_ok S0 b h h' : HInv S0 b h -> helper_ok h h' -> HInv S0 b h'.
Proof. intros HI [->| ->]; [exact HI|apply hinv_ask, HI]. Qed.

Section DriverProofs.
  Context {T D : Type} (des : deser T D) (tb : bytes -> option bool).
  Hypothesis HR : respects des.

  Lemma driver_step_hinv evs v e t v' : well_nested evs ->
    HInv (frames evs) (is_pending evs) (v_helper v) -> driver_step des tb v e = Ok (t, v') ->
    HInv (frames (evs ++ [e])) (is_pending (evs ++ [e])) (v_helper v').
  Proof.
    intros HW HI HS. unfold driver_step in HS.
    destruct (dh_event (v_helper v) e) as [h|] eqn:E; [|discriminate].
    pose proof (hinv_event _ _ _ _ HW HI E) as HI'.
    destruct (handle_skip (v_skip v) e) as [skip [e'|]]; [|injection HS as <- <-; exact HI'].
    destruct HR as (H1 & H2 & _).
    assert (HO : forall o h', match v_des v with None => de_init des h e' | Some d => de_next des d h e' end = Ok (o, h') -> helper_ok h h').
    { intros o h' HO. destruct (v_des v); [eapply H2|eapply H1]; exact HO. }
    destruct (match v_des v with None => de_init des h e' | Some d => de_next des d h e' end) as [[o h']|k|]; try discriminate.
    specialize (HO o h' eq_refl).
    destruct (unconsumed tb skip (o_any o) (into_event (o_ev o))); try discriminate.
    destruct (o_art o); injection HS as <- <-; apply (hinv_ok _ _ _ _ HI' HO).
  Qed.

  Lemma driver_run_hinv pre : forall evs v v', well_nested (evs ++ pre) ->
    HInv (frames evs) (is_pending evs) (v_helper v) -> driver_run des tb v pre = RMore v' ->
    HInv (frames (evs ++ pre)) (is_pending (evs ++ pre)) (v_helper v').
  Proof.
    induction pre as [|e pre IH]; intros evs v v' HW HI HRun; cbn [driver_run] in HRun.
    - rewrite app_nil_r. injection HRun as <-. exact HI.
    - destruct (driver_step des tb v e) as [[[t|] v1]|k|] eqn:E; try discriminate.
      assert (EA : (evs ++ e :: pre = (evs ++ [e]) ++ pre)%list) by (rewrite <- app_assoc; reflexivity).
      rewrite EA in HW |- *. apply (IH _ v1); [exact HW| |exact HRun].
      eapply driver_step_hinv; [|exact HI|exact E].
      apply well_nested_prefix, well_nested_prefix in HW. exact HW.
  Qed.

  Lemma driver_run_app a b v : driver_run des tb v (a ++ b) =
    match driver_run des tb v a with
    | RMore v' => driver_run des tb v' b
    | RDone t rest => RDone t (rest ++ b)
    | RErr k => RErr k
    | RPanic => RPanic
    end.
  Proof.
    revert v; induction a as [|e a IH]; intros v; cbn [driver_run app]; [reflexivity|].
    destruct (driver_step des tb v e) as [[[t|] v1]|k|]; try reflexivity. apply IH.
  Qed.

  Lemma skip_content evs : forall h d h' k, well_nested evs -> ~ In EEof evs ->
    dh_run h (map DEvent evs) = Some h' ->
    driver_run des tb (Driver h d (Some (S k))) evs = RMore (Driver h' d (Some (S k + length (open_elements evs)))).
  Proof.
    induction evs as [|e evs IH] using rev_ind; intros h d h' k HW HE HRun.
    - injection HRun as <-. cbn. repeat f_equal. lia.
    - pose proof (well_nested_prefix _ _ HW) as HWp.
      rewrite map_app in HRun.
      assert (HR' : exists h1, dh_run h (map DEvent evs) = Some h1 /\ dh_event h1 e = Some h').
      { clear - HRun. revert h HRun. induction evs as [|x evs IH]; cbn; intros h HRun.
        - exists h. destruct (dh_event h e); [auto|discriminate].
        - destruct (dh_event h x); [|discriminate]. apply IH, HRun. }
      destruct HR' as (h1 & HR1 & HEv).
      rewrite driver_run_app, (IH h d h1 k HWp (fun H => HE (in_or_app _ _ _ (or_introl H))) HR1).
      assert (HLen : length (open_elements (evs ++ [e])) = length (stk_upd (rev (open_elements evs)) e))
        by (rewrite <- open_snoc, rev_length; reflexivity).
      rewrite HLen. cbn [driver_run driver_step v_helper v_skip v_des]. unfold driver_step. cbn [v_helper v_skip v_des].
      rewrite HEv.
      destruct e; cbn [handle_skip stk_upd length]; rewrite ?rev_length; try reflexivity.
      + repeat f_equal. lia.
      + specialize (HW (evs ++ [EEnd name])%list [] (eq_sym (app_nil_r _))).
        rewrite extra_app in HW. cbn [extra_ends] in HW.
        rewrite <- (rev_length (open_elements evs)) in *.
        destruct (rev (open_elements evs)) as [|x l]; cbn [length tl] in *; [lia|].
        destruct (Nat.eqb_spec (S k + S (length l)) 1); [lia|].
        repeat f_equal. lia.
      + exfalso. apply HE, in_or_app. right; left; reflexivity.
  Qed.

  Lemma driver_step_pop h d s e : driver_step des tb (Driver h d s) e = driver_step des tb (Driver (dh_pop h) d s) e.
  Proof.
    unfold driver_step. cbn [v_helper v_skip v_des].
    assert (E : dh_event (dh_pop h) e = dh_event h e); [|rewrite E; reflexivity].
    unfold dh_event. assert (E : dh_pop (dh_pop h) = dh_pop h); [|rewrite E; reflexivity].
    unfold dh_pop. destruct (d_pending h) eqn:E; cbn [d_pending]; [reflexivity|]. rewrite E. reflexivity.
  Qed.

  Lemma skip_exact pre v n a v1 content m h e rest :
    driver_run des tb driver_new pre = RMore v -> well_nested pre -> v_skip v = None ->
    driver_step des tb v (EStart n a) = Ok (None, v1) -> v_skip v1 = Some 1 ->
    balanced_content content ->
    dh_run (v_helper v1) (map DEvent content) = Some h ->
    exists hx, helper_ok (dh_pop (v_helper v)) hx /\
      driver_run des tb v (EStart n a :: content ++ EEnd m :: e :: rest) =
      driver_run des tb (Driver hx (v_des v1) None) (e :: rest).
  Proof.
    intros HRun HW HS HStep HS1 (HWc & HOc & HEc) HH.
    pose proof (driver_run_hinv pre [] driver_new v HW hinv_default HRun) as HI. cbn [app] in HI.
    assert (HP : HInv (open_frames pre) false (dh_pop (v_helper v))).
    { destruct (open_frames_of _ HW) as [Ho Hne]. rewrite Ho. destruct (is_pending pre).
      - apply hinv_pop; [exact HI|apply Hne; reflexivity].
      - rewrite (hinv_nopop _ _ HI). exact HI. }
    pose proof (driver_step_hinv _ _ _ _ _ HW HI HStep) as HI1.
    (* the helper after the start tag *)
    assert (HHelper : exists h1, dh_enter (dh_pop (v_helper v)) a false = Some h1 /\ helper_ok h1 (v_helper v1)).
    { unfold driver_step in HStep. destruct (dh_event (v_helper v) (EStart n a)) as [h1|] eqn:E; [|discriminate].
      exists h1. split; [exact E|]. rewrite HS in HStep. cbn [handle_skip] in HStep.
      destruct HR as (H1 & H2 & _).
      assert (HO : forall o h', match v_des v with None => de_init des h1 (EStart n a) | Some d => de_next des d h1 (EStart n a) end = Ok (o, h') -> helper_ok h1 h').
      { intros o h' HO. destruct (v_des v); [eapply H2|eapply H1]; exact HO. }
      destruct (match v_des v with None => de_init des h1 (EStart n a) | Some d => de_next des d h1 (EStart n a) end) as [[o h']|k|]; try discriminate.
      specialize (HO o h' eq_refl).
      destruct (unconsumed tb None (o_any o) (into_event (o_ev o))); try discriminate.
      destruct (o_art o); try discriminate; injection HStep as <-; exact HO. }
    destruct HHelper as (h1 & HEnter & HOk).
    set (hx := pop1 (v_helper v1)).
    assert (HX : helper_ok (dh_pop (v_helper v)) hx).
    { destruct HOk as [E|E]; unfold hx; rewrite E.
      - left. apply (pop1_enter _ _ _ _ _ HP HEnter).
      - apply (pop1_ask _ _ _ _ _ HP HEnter). }
    exists hx. split; [exact HX|].
    cbn [driver_run app]. rewrite HStep. destruct v1 as [hv dv sv]. cbn [v_helper v_des v_skip] in *. subst sv.
    rewrite driver_run_app.
    rewrite (skip_content content hv dv h 0 HWc HEc HH), HOc. cbn [length Nat.add].
    cbn [driver_run]. unfold driver_step at 1. cbn [v_helper v_skip v_des].
    cbn [dh_event handle_skip Nat.eqb].
    assert (HWs : well_nested (pre ++ [EStart n a])).
    { apply well_nested_app; [exact HW|]. intros p q Ep. destruct p as [|x p]; [reflexivity|].
      injection Ep as <- Ep. symmetry in Ep. apply app_eq_nil in Ep. destruct Ep as [-> _]. reflexivity. }
    pose proof (balanced_restores content _ hv h HWs HI1 HWc HH) as HB. rewrite HOc in HB. cbn [length iter_pop] in HB.
    set (h3 := DHelper (d_level (dh_pop h)) (d_res (dh_pop h)) (d_cache (dh_pop h)) true).
    assert (H3 : dh_pop h3 = dh_pop hx).
    { assert (E3 : dh_pop h3 = pop1 (dh_pop h)) by reflexivity. rewrite E3, HB.
      destruct HI1 as [_ HPd _ _]. unfold is_pending in HPd. rewrite rev_app_distr in HPd. cbn in HPd.
      rewrite (dh_pop_eq hv), HPd. reflexivity. }
    rewrite (driver_step_pop h3), H3, <- (driver_step_pop hx). reflexivity.
  Qed.
End DriverProofs.

Lemma skip_only {T D} (des : deser T D) tb v e r v1 : gives_back des ->
  v_skip v = None -> driver_step des tb v e = Ok (r, v1) ->
  v_skip v1 = None \/ (v_skip v1 = Some 1 /\ exists n a, e = EStart n a).
Proof.
  intros [G1 G2] S H. unfold driver_step in H. destruct (dh_event (v_helper v) e) as [h|]; [|discriminate].
  rewrite S in H. cbn [handle_skip] in H.
  assert (G : forall o h' e', match v_des v with None => de_init des h e | Some d => de_next des d h e end = Ok (o, h') ->
    into_event (o_ev o) = Some e' -> e' = e) by (destruct (v_des v); eauto).
  destruct (match v_des v with None => de_init des h e | Some d => de_next des d h e end) as [[o h']|k|]; try discriminate.
  specialize (G o h'). destruct (unconsumed tb None (o_any o) (into_event (o_ev o))) as [sk|k|] eqn:U; try discriminate.
  assert (K : v_skip v1 = sk) by (destruct (o_art o); injection H as _ <-; reflexivity). rewrite K.
  unfold unconsumed in U. destruct (into_event (o_ev o)) as [e'|]; [|injection U as <-; auto].
  rewrite <- (G e' eq_refl eq_refl). destruct (o_any o).
  - destruct e'; injection U as <-; eauto.
  - destruct e'; try discriminate; try (injection U as <-; auto). destruct (tb raw) as [[]|]; try discriminate. injection U as <-; auto.
Qed.
