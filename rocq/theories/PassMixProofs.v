From Verif Require Import MetaModel MetaSpec MetaProofs OccursSpec OptModel OptSpec OptProofs UnionModel UnionProofs
  FlatModel FlatSpec FlatProofs PassModel PassSpec PassProofs.
Local Open Scope list_scope.

(** * Mixed types *)

Definition simplified (x : complex_meta) : complex_meta :=
  ComplexMeta (cx_base x) (cx_content x) (cx_min x) (cx_max x) (cx_dynamic x) false (cx_attrs x).
Definition texted (m : gmode) (g : group_meta) : variant :=
  match m with
  | GSequence => VSequence (GroupMeta (gr_mixed g) (with_texts (gr_elements g)))
  | _ => VChoice (GroupMeta (gr_mixed g) (if existsb is_text (gr_elements g) then gr_elements g else gr_elements g ++ [text_element "text" 1]))
  end.

Lemma resolved_self ts c ty : lookup c ts = Some ty -> plain_ref (m_variant ty) = None -> get_resolved_type ts c = Some ty.
Proof.
  intros L P. unfold get_resolved_type, get_resolved. cbn [get_resolved_impl contains existsb]. rewrite L, P. reflexivity.
Qed.
Lemma no_step ts c ty : lookup c ts = Some ty -> (forall d, ~ plain_step ts c d) -> plain_ref (m_variant ty) = None.
Proof.
  intros L N. destruct (plain_ref (m_variant ty)) as [d|] eqn:P; [|reflexivity]. exfalso. apply (N d). apply step_iff. eauto.
Qed.
Lemma at_most_iff e : at_most_one e = true <-> el_min e <= 1 /\ el_max e = Bounded 1.
Proof.
  unfold at_most_one, max_eqb. rewrite andb_true_iff, Nat.leb_le. destruct (max_eq_dec (el_max e) (Bounded 1)); intuition congruence.
Qed.
Lemma all_at_most l : forallb at_most_one l = true <-> forall e, In e l -> el_min e <= 1 /\ el_max e = Bounded 1.
Proof.
  rewrite forallb_forall. split; intros H e I; [apply at_most_iff|apply at_most_iff]; auto.
Qed.

Lemma suitable_in ts i : NoDup (map fst ts) -> own_contents ts ->
  In i (mixed_idents ts) <-> exists x c m g, suitable ts i x c m g.
Proof.
  intros ND [OA _]. split.
  - intros H. apply complex_idents_in in H; [|exact ND]. destruct H as (ty & x & L & V & C). unfold can_simplify in C.
    apply andb_prop in C. destruct C as [Mx C]. unfold content_variant in C. destruct (cx_content x) as [c|] eqn:Cx; [|discriminate].
    destruct (get_resolved_type ts c) as [tc|] eqn:R; cbn [option_map] in C; [|discriminate].
    destruct (lookup c ts) as [t|] eqn:Lc.
    2: { exfalso. unfold get_resolved_type in R. destruct (get_resolved ts c) as [[? ?]|] eqn:G; [|discriminate].
         apply resolved_none in Lc. congruence. }
    assert (P : plain_ref (m_variant t) = None).
    { apply (no_step ts c t Lc). apply (OA i c). exists ty, x. auto. }
    rewrite (resolved_self _ _ _ Lc P) in R. injection R as <-.
    assert (S : forall m g, group_of (m_variant t) = Some (m, g) ->
      (m = GSequence /\ (forall e, In e (gr_elements g) -> el_min e <= 1 /\ el_max e = Bounded 1) \/ m = GChoice /\ cx_max x = Unbounded) ->
      exists x c m g, suitable ts i x c m g).
    { intros m g G Q. exists x, c, m, g. split; [exists ty; auto|]. split; [exact Mx|]. split; [exact Cx|]. split; [exists t; auto|exact Q]. }
    destruct (m_variant t) as [| | | | | |g|g|g| |] eqn:Vt; try discriminate.
    + apply (S GChoice g eq_refl). right. split; [reflexivity|]. destruct (cx_max x); [reflexivity|discriminate].
    + apply (S GSequence g eq_refl). left. split; [reflexivity|]. apply all_at_most. exact C.
  - intros (x & c & m & g & (ty & L & V) & Mx & Cx & (tc & Lc & G) & Q). unfold mixed_idents, complex_idents.
    apply in_map_iff. exists (i, ty). split; [reflexivity|]. apply filter_In. split; [apply lookup_in; exact L|]. cbn. rewrite V.
    unfold can_simplify, content_variant. rewrite Mx, Cx. cbn [andb].
    assert (P : plain_ref (m_variant tc) = None) by (destruct (m_variant tc); try discriminate; reflexivity).
    rewrite (resolved_self _ _ _ Lc P). cbn [option_map].
    destruct Q as [(-> & Q)|(-> & Q)]; destruct (m_variant tc); try discriminate; injection G as ->.
    + apply all_at_most. exact Q.
    + rewrite Q. reflexivity.
Qed.

Lemma suitable_ne ts i x c m g : suitable ts i x c m g -> c <> i.
Proof.
  intros ((ty & L & V) & _ & _ & (tc & Lc & G) & _) ->. assert (tc = ty) by congruence. subst. rewrite V in G. discriminate.
Qed.

Lemma simplify_one o i x c m g : suitable (o_types o) i x c m g ->
  simplify_mixed_type o i = Ok (with_types o (set_type i (VComplex (simplified x)) (set_type c (texted m g) (o_types o)))).
Proof.
  intros Su. pose proof (suitable_ne _ _ _ _ _ _ Su) as NE. destruct Su as ((ty & L & V) & Mx & Cx & (tc & Lc & G) & Q).
  assert (Gi : get_variant (o_types o) i = Some (VComplex x)) by (unfold get_variant; rewrite L; cbn; congruence).
  assert (Gc : get_variant (o_types o) c = Some (m_variant tc)) by (unfold get_variant; rewrite Lc; reflexivity).
  unfold simplify_mixed_type. rewrite Gi, Cx, Gc.
  assert (Li : forall v, get_variant (set_type c v (o_types o)) i = Some (VComplex x)).
  { intros v. unfold get_variant. rewrite lookup_set. destruct (tident_eq_dec c i); [congruence|]. rewrite L. cbn [option_map]. rewrite V. reflexivity. }
  destruct Q as [(-> & Q)|(-> & Q)]; destruct (m_variant tc); try discriminate; injection G as ->.
  - apply all_at_most in Q. rewrite Q. cbv zeta. rewrite Li. reflexivity.
  - rewrite Q. cbv zeta. rewrite Li. unfold simplified, texted. rewrite Q. reflexivity.
Qed.

(** The types [done] have been handled. *)
Record textified (ts ts' : types) (done : list tident) : Prop := Textified {
  tx_keys : map fst ts' = map fst ts;
  tx_done : forall i x c m g ty tc, In i done -> suitable ts i x c m g -> lookup i ts = Some ty -> lookup c ts = Some tc ->
    lookup i ts' = Some (set_variant ty (VComplex (simplified x))) /\ lookup c ts' = Some (set_variant tc (texted m g));
  tx_rest : forall j, ~ In j done -> (forall i, In i done -> ~ content_of ts i j) -> lookup j ts' = lookup j ts }.

Lemma suitable_content ts i x c m g : suitable ts i x c m g -> content_of ts i c.
Proof. intros ((ty & L & V) & _ & Cx & _). exists ty, x. auto. Qed.
Lemma suitable_fun ts i x c m g x' c' m' g' : suitable ts i x c m g -> suitable ts i x' c' m' g' -> x = x' /\ c = c' /\ m = m' /\ g = g'.
Proof.
  intros ((ty & L & V) & _ & Cx & (tc & Lc & G) & _) ((ty' & L' & V') & _ & Cx' & (tc' & Lc' & G') & _).
  assert (ty = ty') by congruence. subst ty'. assert (x = x') by congruence. subst x'. assert (c = c') by congruence. subst c'.
  assert (tc = tc') by congruence. subst tc'. rewrite G in G'. injection G' as -> ->. auto.
Qed.
Lemma suitable_complex ts i x c m g j x' c' m' g' : suitable ts i x c m g -> suitable ts j x' c' m' g' -> c <> j.
Proof.
  intros (_ & _ & _ & (tc & Lc & G) & _) ((ty & L & V) & _) ->. assert (tc = ty) by congruence. subst. rewrite V in G. discriminate.
Qed.

Lemma simplify_all ts ids : own_contents ts -> forall done o, textified ts (o_types o) done -> NoDup (done ++ ids) ->
  (forall i, In i (done ++ ids) -> exists x c m g, suitable ts i x c m g) ->
  exists o', simplify_in_order ids o = Ok o' /\ textified ts (o_types o') (done ++ ids).
Proof.
  intros [_ Own]. unfold simplify_in_order. induction ids as [|i ids IH]; intros done o T ND Su; cbn [fold_left].
  - exists o. rewrite app_nil_r. auto.
  - destruct (Su i) as (x & c & m & g & Si); [apply in_app_iff; right; left; reflexivity|].
    assert (Ni : ~ In i done) by (intros I; apply NoDup_remove_2 in ND; apply ND, in_app_iff; auto).
    assert (Sd : forall j, In j done -> exists x c m g, suitable ts j x c m g) by (intros j I; apply Su, in_app_iff; auto).
    assert (Ki : lookup i (o_types o) = lookup i ts).
    { apply (tx_rest _ _ _ T); [exact Ni|]. intros j I (ty & xj & L & V & Cx). destruct (Sd _ I) as (x' & c' & m' & g' & Sj).
      pose proof Sj as ((tj & Lj & Vj) & _ & Cj & _). assert (tj = ty) by congruence. subst tj. assert (xj = x') by congruence. subst.
      assert (c' = i) by congruence. exact (suitable_complex _ _ _ _ _ _ _ _ _ _ _ Sj Si H). }
    assert (Kc : lookup c (o_types o) = lookup c ts).
    { apply (tx_rest _ _ _ T).
      - intros I. destruct (Sd _ I) as (x' & c' & m' & g' & Sj). exact (suitable_complex _ _ _ _ _ _ _ _ _ _ _ Si Sj eq_refl).
      - intros j I C. assert (j = i) by (eapply Own; [exact C|eapply suitable_content; exact Si]). subst. contradiction. }
    assert (So : suitable (o_types o) i x c m g).
    { destruct Si as ((ty & L & V) & A & B & (tc & Lc & G) & Q). split; [exists ty; rewrite Ki; auto|]. split; [exact A|]. split; [exact B|].
      split; [exists tc; rewrite Kc; auto|exact Q]. }
    rewrite (simplify_one _ _ _ _ _ _ So). set (o1 := with_types o _).
    assert (T1 : textified ts (o_types o1) (done ++ [i])).
    { pose proof (suitable_ne _ _ _ _ _ _ Si) as NE. constructor; unfold o1, with_types; cbn [o_types].
      - rewrite !set_keys. apply (tx_keys _ _ _ T).
      - intros j xj cj mj gj tj tcj I Sj Lj Lcj. rewrite !lookup_set. apply in_app_iff in I. destruct I as [I|[<-|[]]].
        + assert (Nj : i <> j) by (intros ->; contradiction).
          assert (A1 : c <> j) by exact (suitable_complex _ _ _ _ _ _ _ _ _ _ _ Si Sj).
          assert (A2 : cj <> i) by exact (suitable_complex _ _ _ _ _ _ _ _ _ _ _ Sj Si).
          assert (A3 : c <> cj) by (intros <-; apply Nj; eapply Own; eapply suitable_content; eassumption).
          destruct (tx_done _ _ _ T j xj cj mj gj tj tcj I Sj Lj Lcj) as [E1 E2].
          destruct (tident_eq_dec i j); [congruence|]. destruct (tident_eq_dec c j); [congruence|].
          destruct (tident_eq_dec i cj); [congruence|]. destruct (tident_eq_dec c cj); [congruence|]. auto.
        + destruct (suitable_fun _ _ _ _ _ _ _ _ _ _ Si Sj) as (<- & <- & <- & <-).
          destruct (tident_eq_dec i i); [|congruence]. destruct (tident_eq_dec c i); [congruence|].
          destruct (tident_eq_dec i c); [congruence|]. destruct (tident_eq_dec c c); [|congruence].
          rewrite Ki, Kc, Lj, Lcj. auto.
      - intros j Nj Cj. rewrite !lookup_set.
        assert (i <> j) by (intros ->; apply Nj, in_app_iff; right; left; reflexivity).
        assert (c <> j).
        { intros ->. apply (Cj i); [apply in_app_iff; right; left; reflexivity|]. eapply suitable_content; exact Si. }
        destruct (tident_eq_dec i j); [congruence|]. destruct (tident_eq_dec c j); [congruence|].
        apply (tx_rest _ _ _ T); [intros I; apply Nj, in_app_iff; auto|]. intros k I. apply Cj, in_app_iff. auto. }
    destruct (IH (done ++ [i]) o1 T1) as (o' & E & T').
    + rewrite <- app_assoc. exact ND.
    + intros j I. apply Su. rewrite <- app_assoc in I. exact I.
    + exists o'. split; [exact E|]. rewrite <- app_assoc in T'. exact T'.
Qed.

Lemma simplify_order o ids : NoDup (map fst (o_types o)) -> own_contents (o_types o) -> NoDup ids ->
  (forall i, In i ids <-> In i (mixed_idents (o_types o))) ->
  exists o', simplify_in_order ids o = Ok o' /\ textified (o_types o) (o_types o') ids.
Proof.
  intros ND Own Ni Same. apply (simplify_all (o_types o) ids Own [] o); [|exact Ni|].
  - constructor; [reflexivity|intros i x c m g ty tc []|auto].
  - intros i I. apply (suitable_in _ _ ND Own). apply Same. exact I.
Qed.

Lemma texted_added m g : exists l, texts_added (gr_elements g) l /\
  (m = GSequence -> texted m g = VSequence (GroupMeta (gr_mixed g) l)) /\ (m = GChoice -> texted m g = VChoice (GroupMeta (gr_mixed g) l)).
Proof.
  assert (R : forall l, texts_added l l) by (induction l; constructor; assumption).
  assert (C : m = GChoice \/ m <> GChoice) by (destruct m; auto; right; discriminate). destruct C as [->|C].
  - exists (if existsb is_text (gr_elements g) then gr_elements g else gr_elements g ++ [text_element "text" 1]).
    split; [|split; [discriminate|reflexivity]]. destruct (existsb is_text (gr_elements g)); [apply R|].
    induction (gr_elements g) as [|e l IH]; cbn; [apply ta_text; [reflexivity|constructor]|constructor; exact IH].
  - exists (with_texts (gr_elements g)). split; [|split; [intros ->; reflexivity|intros; contradiction]].
    unfold with_texts. apply ta_text; [reflexivity|]. induction (gr_elements g) as [|e l IH]; cbn; [constructor|].
    constructor. apply ta_text; [reflexivity|exact IH].
Qed.

(** ** The words *)

Definition textc (n : string) : child := (PIdent id_unknown (Named n), KText).
Lemma real_child e : real_element e -> is_child (child_of e) = true.
Proof. intros [_ H]. unfold is_child, child_of. cbn. destruct (el_variant e); [congruence|reflexivity|reflexivity]. Qed.
Lemma part_text ts n mn v : part ts (text_element n mn) v -> exists k, v = repeat (textc n) k /\ mn <= k <= 1.
Proof.
  intros H. inversion H as [e t k w G|e k G W]; subst; [discriminate|]. exists k. split; [reflexivity|]. exact W.
Qed.
Lemma part_text_some ts n mn : mn <= 1 -> part ts (text_element n mn) [textc n].
Proof. intros H. apply (part_child ts (text_element n mn) 1); [reflexivity|]. split; [exact H|cbn; lia]. Qed.
Lemma part_text_none ts n : part ts (text_element n 0) [].
Proof. apply (part_child ts (text_element n 0) 0); [reflexivity|]. split; cbn; lia. Qed.

Lemma shape_app a b : shape (a ++ b) = shape a ++ shape b.
Proof. apply map_app. Qed.
Lemma filter_texts n k : filter is_child (repeat (textc n) k) = [].
Proof. induction k; cbn; auto. Qed.
Lemma filter_children (c : child) k : is_child c = true -> filter is_child (repeat c k) = repeat c k.
Proof. intros H. induction k; cbn; [reflexivity|]. rewrite H, IHk. reflexivity. Qed.
Lemma part_other ts ts' e w : is_group e = None -> part ts e w -> part ts' e w.
Proof. intros G H. inversion H; subst; [congruence|]. apply part_child; assumption. Qed.

(** After the first text: every element with its text. *)
Lemma texts_sound ts ts' l w : (forall e, In e l -> real_element e) ->
  in_order (part ts') (with_texts l) w -> in_order (part ts) l (filter is_child w).
Proof.
  intros R H. unfold with_texts in H. inversion H as [|? ? v w' Pv Hw]; subst.
  apply part_text in Pv. destruct Pv as (k & -> & _). rewrite filter_app, filter_texts. cbn [app]. clear H.
  revert w' Hw. induction l as [|e l IH]; cbn [flat_map app]; intros w H.
  - inversion H; subst. constructor.
  - inversion H as [|? ? v1 w1 P1 H1]; subst. inversion H1 as [|? ? v2 w2 P2 H2]; subst.
    apply part_text in P2. destruct P2 as (k2 & -> & _). rewrite !filter_app, filter_texts. cbn [app].
    assert (Re : real_element e) by (apply R; left; reflexivity).
    assert (F : filter is_child v1 = v1).
    { inversion P1 as [? ? ? ? G|? n G W]; subst; [destruct Re; congruence|]. apply filter_children, real_child, Re. }
    rewrite F. constructor.
    + eapply part_other; [apply Re|exact P1].
    + apply IH; [intros; apply R; right; assumption|exact H2].
Qed.

Lemma rest_complete ts ts' l : (forall e, In e l -> real_element e /\ el_min e <= 1 /\ el_max e = Bounded 1) ->
  forall w, in_order (part ts) l w ->
  forall u, spaced w u ->
  (** a text in front is the one of the element before *)
  exists (b : bool) w', shape w' = (if b then match u with None :: u' => u' | _ => u end else u) /\
    (b = true -> exists u', u = None :: u') /\
    in_order (part ts') (flat_map (fun e => [e; text_element (("text_after_" ++ name_str (pi_name (el_ident e)))%string) 0]) l) w'.
Proof.
  induction l as [|e l IH]; intros R w H u Sp.
  - inversion H; subst. inversion Sp; subst.
    + exists false, []. split; [reflexivity|]. split; [discriminate|constructor].
    + exists true, []. split; [reflexivity|]. split; [eauto|constructor].
  - inversion H as [|? ? v w' Pv Hw]; subst. destruct (R e (or_introl eq_refl)) as (Re & Mn & Mx).
    assert (R' : forall e, In e l -> real_element e /\ el_min e <= 1 /\ el_max e = Bounded 1) by (intros; apply R; right; assumption).
    assert (Pv' : part ts' e v) by (eapply part_other; [apply Re|exact Pv]).
    inversion Pv as [? ? ? ? G|? n G [W1 W2]]; subst; [destruct Re; congruence|]. rewrite Mx in W2. cbn in W2.
    set (te := text_element (("text_after_" ++ name_str (pi_name (el_ident e)))%string) 0) in *.
    assert (N : n = 0 \/ n = 1) by lia. destruct N as [->| ->]; cbn [repeat app] in *.
    + (* no such element *)
      destruct (IH R' _ Hw _ Sp) as (b & w1 & S1 & S2 & S3). exists b, w1. split; [exact S1|]. split; [exact S2|].
      cbn [flat_map app]. change w1 with ([] ++ ([] ++ w1)). constructor; [exact Pv'|]. constructor; [apply part_text_none|exact S3].
    + assert (Rest : forall u', spaced w' u' -> exists w1, shape w1 = u' /\
        in_order (part ts') (te :: flat_map (fun e => [e; text_element (("text_after_" ++ name_str (pi_name (el_ident e)))%string) 0]) l) w1).
      { intros u' Sp'. destruct (IH R' _ Hw _ Sp') as (b & w1 & S1 & S2 & S3). destruct b.
        - destruct (S2 eq_refl) as (u2 & ->). exists ([textc (("text_after_" ++ name_str (pi_name (el_ident e)))%string)] ++ w1). split.
          + cbn. f_equal. exact S1.
          + constructor; [apply part_text_some; lia|exact S3].
        - exists ([] ++ w1). split; [exact S1|]. constructor; [apply part_text_none|exact S3]. }
      assert (Sh : shape [child_of e] = [Some (child_of e)]).
      { pose proof (real_child e Re) as C. unfold is_child in C. unfold shape. cbn [map]. destruct (snd (child_of e)); [discriminate|reflexivity|reflexivity]. }
      inversion Sp as [| |c0 w0 u0 Sp0|c0 w0 u0 Sp0]; subst.
      * destruct (Rest _ Sp0) as (w1 & E1 & E2). exists false, ([child_of e] ++ w1). split; [rewrite shape_app, Sh, E1; reflexivity|].
        split; [discriminate|]. cbn [flat_map app]. apply (io_cons _ e _ [child_of e] w1); [exact Pv'|exact E2].
      * destruct (Rest _ Sp0) as (w1 & E1 & E2). exists true, ([child_of e] ++ w1). split; [rewrite shape_app, Sh, E1; reflexivity|].
        split; [eauto|]. cbn [flat_map app]. apply (io_cons _ e _ [child_of e] w1); [exact Pv'|exact E2].
Qed.

Lemma texts_complete ts ts' l : (forall e, In e l -> real_element e /\ el_min e <= 1 /\ el_max e = Bounded 1) ->
  forall w u, in_order (part ts) l w -> spaced w u -> exists w', shape w' = u /\ in_order (part ts') (with_texts l) w'.
Proof.
  intros R w u H Sp. destruct (rest_complete ts ts' l R w H u Sp) as (b & w1 & S1 & S2 & S3). unfold with_texts. destruct b.
  - destruct (S2 eq_refl) as (u' & ->). exists ([textc "text_before"] ++ w1). split; [cbn; f_equal; exact S1|].
    constructor; [apply part_text_some; lia|exact S3].
  - exists ([] ++ w1). split; [exact S1|]. constructor; [apply part_text_none|exact S3].
Qed.

Lemma spaced_split v w u : spaced (v ++ w) u -> exists u1 u2, u = u1 ++ u2 /\ spaced v u1 /\ spaced w u2.
Proof.
  revert u. induction v as [|c v IH]; cbn; intros u H; [exists [], u; repeat split; [constructor|exact H]|].
  inversion H as [| |c0 w0 u0 S|c0 w0 u0 S]; subst; destruct (IH _ S) as (u1 & u2 & -> & A & B).
  - exists (Some c :: u1), u2. repeat split; [constructor; exact A|exact B].
  - exists (None :: Some c :: u1), u2. repeat split; [constructor; exact A|exact B].
Qed.

Lemma seq_accepts ts c tc g w : lookup c ts = Some tc -> m_variant tc = VSequence g -> accepts ts c w <-> in_order (part ts) (gr_elements g) w.
Proof.
  intros L V. split; intros H.
  - inversion H as [? t g' ? L' V' I|? t g' e ? L' V'|? t g' ? L' V']; subst; assert (t = tc) by congruence; subst; rewrite V in V'; try discriminate.
    injection V' as <-. exact I.
  - eapply acc_sequence; eassumption.
Qed.
Lemma choice_accepts ts c tc g w : lookup c ts = Some tc -> m_variant tc = VChoice g ->
  accepts ts c w <-> exists e, In e (gr_elements g) /\ part ts e w.
Proof.
  intros L V. split; intros H.
  - inversion H as [? t g' ? L' V' I|? t g' e ? L' V' Ie P|? t g' ? L' V']; subst; assert (t = tc) by congruence; subst; rewrite V in V'; try discriminate.
    injection V' as <-. eauto.
  - destruct H as (e & Ie & P). eapply acc_choice; eassumption.
Qed.

Lemma times_filter {A} (L L' : list A -> Prop) f n w : (forall v, L v -> L' (filter f v)) -> times L n w -> times L' n (filter f w).
Proof. intros H. induction 1; cbn; [constructor|]. rewrite filter_app. constructor; auto. Qed.

Section Words.
  Variables (ts ts' : types) (i c : tident) (x : complex_meta) (g : group_meta) (ty tc : mtype).
  Hypothesis Li : lookup i ts = Some ty.
  Hypothesis Vi : m_variant ty = VComplex x.
  Hypothesis Cx : cx_content x = Some c.
  Hypothesis Lc : lookup c ts = Some tc.
  Hypothesis Li' : lookup i ts' = Some (set_variant ty (VComplex (simplified x))).
  Hypothesis Real : forall e, In e (gr_elements g) -> real_element e.

  Lemma old_iff w : type_accepts ts i w <-> exists n, within (cx_min x) (cx_max x) n /\ times (accepts ts c) n w.
  Proof.
    split.
    - intros (t & x0 & L & V & c0 & n & C0 & W & T). assert (t = ty) by congruence. subst. assert (x0 = x) by congruence. subst.
      assert (c0 = c) by congruence. subst. eauto.
    - intros (n & W & T). exists ty, x. split; [exact Li|]. split; [exact Vi|]. exists c, n. auto.
  Qed.
  Lemma new_iff w : type_accepts ts' i w <-> exists n, within (cx_min x) (cx_max x) n /\ times (accepts ts' c) n w.
  Proof.
    split.
    - intros (t & x0 & L & V & c0 & n & C0 & W & T). rewrite Li' in L. injection L as <-. injection V as <-. cbn in C0, W.
      assert (c0 = c) by congruence. subst. eauto.
    - intros (n & W & T). eexists. exists (simplified x). split; [exact Li'|]. split; [reflexivity|]. exists c, n. auto.
  Qed.

  Section Seq.
    Hypothesis Vc : m_variant tc = VSequence g.
    Hypothesis Lc' : lookup c ts' = Some (set_variant tc (texted GSequence g)).
    Hypothesis Few : forall e, In e (gr_elements g) -> el_min e <= 1 /\ el_max e = Bounded 1.

    Lemma seq_sound w : type_accepts ts' i w -> type_accepts ts i (filter is_child w).
    Proof.
      rewrite new_iff, old_iff. intros (n & W & T). exists n. split; [exact W|]. eapply times_filter; [|exact T].
      intros v. rewrite (seq_accepts _ _ _ _ _ Lc Vc). rewrite (seq_accepts ts' c _ _ _ Lc' eq_refl). cbn [gr_elements].
      apply texts_sound. exact Real.
    Qed.
    Lemma seq_complete w u : 1 <= cx_min x -> type_accepts ts i w -> spaced w u -> exists w', type_accepts ts' i w' /\ shape w' = u.
    Proof.
      intros M. rewrite old_iff. intros (n & W & T) Sp.
      assert (X : exists w', times (accepts ts' c) n w' /\ shape w' = u).
      { assert (P : 1 <= n) by (destruct W; lia). clear W. revert u Sp P.
        induction T as [|n v w Lv T IH]; intros u Sp P; [lia|]. destruct (spaced_split _ _ _ Sp) as (u1 & u2 & -> & S1 & S2).
        assert (One : forall u, spaced v u -> exists w', shape w' = u /\ accepts ts' c w').
        { intros u0 S0. rewrite (seq_accepts _ _ _ _ _ Lc Vc) in Lv.
          destruct (texts_complete ts ts' (gr_elements g)) with (w := v) (u := u0) as (w' & E & I); [|exact Lv|exact S0|].
          - intros e Ie. split; [apply Real, Ie|apply Few, Ie].
          - exists w'. split; [exact E|]. eapply acc_sequence; [exact Lc'|reflexivity|exact I]. }
        destruct n as [|n].
        - inversion T; subst. rewrite app_nil_r in Sp.
          assert (S3 : spaced v (u1 ++ u2)) by exact Sp. destruct (One _ S3) as (w' & E & A). exists (w' ++ []). split; [constructor; [exact A|constructor]|].
          rewrite app_nil_r. exact E.
        - destruct (One _ S1) as (w1 & E1 & A1). destruct (IH _ S2) as (w2 & T2 & E2); [lia|]. exists (w1 ++ w2). split; [constructor; assumption|].
          rewrite shape_app, E1, E2. reflexivity. }
      destruct X as (w' & T' & E). exists w'. split; [|exact E]. apply new_iff. eauto.
    Qed.
  End Seq.

  Section Choice.
    Hypothesis Vc : m_variant tc = VChoice g.
    Hypothesis Lc' : lookup c ts' = Some (set_variant tc (texted GChoice g)).
    Hypothesis Ub : cx_max x = Unbounded.

    Lemma no_text : existsb is_text (gr_elements g) = false.
    Proof.
      destruct (existsb is_text (gr_elements g)) eqn:E; [|reflexivity]. exfalso. apply existsb_exists in E. destruct E as (e & I & T).
      destruct (Real _ I) as [_ N]. unfold is_text in T. destruct (el_variant e); congruence.
    Qed.
    Lemma new_choice w : accepts ts' c w <-> accepts ts c w \/ w = [textc "text"].
    Proof.
      rewrite (choice_accepts ts' c _ _ _ Lc' eq_refl), (choice_accepts _ _ _ _ _ Lc Vc). cbn [gr_elements]. rewrite no_text. split.
      - intros (e & I & P). apply in_app_iff in I. destruct I as [I|[<-|[]]].
        + left. exists e. split; [exact I|]. eapply part_other; [apply Real, I|exact P].
        + right. apply part_text in P. destruct P as (k & -> & K). assert (k = 1) by lia. subst. reflexivity.
      - intros [(e & I & P)| ->].
        + exists e. split; [apply in_app_iff; auto|]. eapply part_other; [apply Real, I|exact P].
        + exists (text_element "text" 1). split; [apply in_app_iff; right; left; reflexivity|]. apply part_text_some. lia.
    Qed.
    Lemma old_child w : accepts ts c w -> filter is_child w = w.
    Proof.
      rewrite (choice_accepts _ _ _ _ _ Lc Vc). intros (e & I & P). destruct (Real _ I) as [G N].
      inversion P as [? ? ? ? G'|? n G' W]; subst; [congruence|]. apply filter_children, real_child. split; assumption.
    Qed.
    Lemma choice_sound w : (cx_min x = 0 \/ exists e, In e (gr_elements g) /\ el_min e = 0) ->
      type_accepts ts' i w -> type_accepts ts i (filter is_child w).
    Proof.
      intros Z. rewrite new_iff, old_iff. intros (n & [W _] & T).
      assert (X : exists k, times (accepts ts c) k (filter is_child w) /\ (k = n \/ cx_min x = 0)).
      { clear W. destruct Z as [Z|(e & Ie & Me)].
        - assert (Y : exists k, times (accepts ts c) k (filter is_child w)).
          { clear Z. induction T as [|n v w Lv T (k & IH)]; [exists 0; constructor|]. rewrite filter_app. apply new_choice in Lv. destruct Lv as [Lv| ->].
            - exists (S k). rewrite (old_child _ Lv). constructor; assumption.
            - exists k. exact IH. }
          destruct Y as (k & Y). exists k. auto.
        - exists n. split; [|auto]. induction T as [|n v w Lv T IH]; [constructor|]. rewrite filter_app. apply new_choice in Lv. destruct Lv as [Lv| ->].
          + rewrite (old_child _ Lv). constructor; assumption.
          + cbn [filter textc is_child snd]. constructor; [|exact IH]. apply (choice_accepts _ _ _ _ _ Lc Vc). exists e. split; [exact Ie|].
            apply (part_child ts e 0); [apply Real, Ie|]. rewrite Me. split; [lia|]. destruct (el_max e); cbn; [exact Logic.I|lia]. }
      destruct X as (k & Tk & K). exists k. split; [|exact Tk]. rewrite Ub. split; [|exact Logic.I]. destruct K; lia.
    Qed.

    Lemma mixed_split v w u : mixed_with_texts (v ++ w) u -> exists u1 u2, u = u1 ++ u2 /\ mixed_with_texts v u1 /\ mixed_with_texts w u2.
    Proof.
      intros H. remember (v ++ w) as vw eqn:E. revert v E. induction H as [|a w0 u H IH|w0 u H IH]; intros v E.
      - symmetry in E. apply app_eq_nil in E. destruct E as [-> ->]. exists [], []. repeat split; constructor.
      - destruct v as [|b v]; cbn in E.
        + subst w. exists [], (Some a :: u). repeat split; [constructor|constructor; exact H].
        + injection E as <- E. destruct (IH _ E) as (u1 & u2 & -> & A & B). exists (Some a :: u1), u2. repeat split; [constructor; exact A|exact B].
      - destruct (IH _ E) as (u1 & u2 & -> & A & B). exists (None :: u1), u2. repeat split; [constructor; exact A|exact B].
    Qed.
    Lemma one_more n w : times (accepts ts' c) n w -> times (accepts ts' c) (S n) (textc "text" :: w).
    Proof. intros T. apply (times_more _ n [textc "text"] w); [apply new_choice; auto|exact T]. Qed.
    Lemma choice_complete w u : (forall e, In e (gr_elements g) -> el_min e <= 1) ->
      type_accepts ts i w -> mixed_with_texts w u -> exists w', type_accepts ts' i w' /\ shape w' = u.
    Proof.
      intros Mn. rewrite old_iff. intros (n & [W _] & T) M.
      assert (X : exists k w', times (accepts ts' c) k w' /\ shape w' = u /\ n <= k).
      { clear W. revert u M. induction T as [|n v w Lv T IH]; intros u M.
        - exists (length u), (map (fun _ => textc "text") u). remember [] as e eqn:E. induction M as [|a w u M IH|w u M IH]; [|discriminate|].
          + repeat split; [constructor|lia].
          + destruct (IH E) as (A & B & C). cbn. split; [apply one_more; exact A|]. split; [f_equal; exact B|lia].
        - destruct (mixed_split _ _ _ M) as (u1 & u2 & -> & M1 & M2). destruct (IH _ M2) as (k2 & w2 & T2 & S2 & K2).
          assert (One : exists k w', times (accepts ts' c) k w' /\ shape w' = u1 /\ 1 <= k).
          { pose proof Lv as Lv0. rewrite (choice_accepts _ _ _ _ _ Lc Vc) in Lv. destruct Lv as (e & Ie & P). destruct (Real _ Ie) as [G N].
            inversion P as [? ? ? ? G'|? k G' [K1 K2']]; subst; [congruence|].
            assert (Cs : forall k' u0, k' <= k -> mixed_with_texts (repeat (child_of e) k') u0 ->
              exists n w', times (accepts ts' c) n w' /\ shape w' = u0 /\ k' <= n).
            { intros k' u0. revert k'. induction u0 as [|o u0 IHu]; intros k' Lk Mu.
              - inversion Mu as [E| |]; subst. destruct k'; [|discriminate]. exists 0, []. repeat split; [constructor|lia].
              - inversion Mu as [|a w0 u' Mu' E|w0 u' Mu']; subst.
                + destruct k' as [|k']; [discriminate|]. cbn in E. injection E as -> ->. destruct (IHu k') as (n0 & w' & A & B & C); [lia|exact Mu'|].
                  exists (S n0), ([child_of e] ++ w'). split; [|split].
                  * constructor; [|exact A]. apply new_choice. left. apply (choice_accepts _ _ _ _ _ Lc Vc). exists e. split; [exact Ie|].
                    apply (part_child ts e 1); [exact G|]. split; [apply Mn, Ie|]. destruct (el_max e); cbn in *; [exact Logic.I|lia].
                  * rewrite shape_app, B. pose proof (real_child e (Real _ Ie)) as Ch. unfold is_child in Ch. unfold shape. cbn [map app].
                    destruct (snd (child_of e)); [discriminate|reflexivity|reflexivity].
                  * lia.
                + destruct (IHu k' Lk Mu') as (n0 & w' & A & B & C). exists (S n0), (textc "text" :: w'). split; [apply one_more; exact A|].
                  split; [cbn; f_equal; exact B|lia]. }
            destruct k as [|k].
            - destruct (Cs 0 u1 (le_n _) M1) as (n0 & w' & A & B & C). exists (S n0), ([] ++ w'). split; [|split; [exact B|lia]].
              constructor; [|exact A]. apply new_choice. left. exact Lv0.
            - destruct (Cs (S k) u1 (le_n _) M1) as (n0 & w' & A & B & C). exists n0, w'. split; [exact A|]. split; [exact B|lia]. }
          destruct One as (k1 & w1 & T1 & S1 & K1). exists (k1 + k2), (w1 ++ w2). split; [apply times_app; assumption|].
          rewrite shape_app, S1, S2. split; [reflexivity|lia]. }
      destruct X as (k & w' & T' & E & K). exists w'. split; [|exact E]. apply new_iff. exists k. split; [|exact T'].
      rewrite Ub. split; [lia|exact Logic.I].
    Qed.
  End Choice.
End Words.

(** ** The order does not matter *)

Lemma content_dec ts i c : {content_of ts i c} + {~ content_of ts i c}.
Proof.
  unfold content_of. destruct (lookup i ts) as [ty|]; [|right; intros (? & ? & ? & _); discriminate].
  destruct (m_variant ty) as [| | | | | | | | |x|] eqn:V; try (right; intros (t & y & E & V' & _); injection E as <-; congruence).
  destruct (cx_content x) as [d|] eqn:C.
  - destruct (tident_eq_dec d c) as [->|D]; [left; exists ty, x; auto|]. right. intros (t & y & E & V' & C'). injection E as <-. congruence.
  - right. intros (t & y & E & V' & C'). injection E as <-. congruence.
Qed.
Lemma same_lookups (a b : types) : map fst a = map fst b -> NoDup (map fst a) -> (forall j, lookup j a = lookup j b) -> a = b.
Proof.
  revert b. induction a as [|[k v] a IH]; intros [|[k' v'] b]; cbn; intros E ND L; try discriminate; [reflexivity|].
  injection E as <- E. inversion ND as [|? ? N1 N2]; subst. f_equal.
  - specialize (L k). destruct (tident_eq_dec k k); [|congruence]. injection L as ->. reflexivity.
  - apply IH; [exact E|exact N2|]. intros j. specialize (L j). destruct (tident_eq_dec j k) as [->|D]; [|exact L].
    transitivity (@None mtype); [apply lookup_none; exact N1|symmetry; apply lookup_none; rewrite <- E; exact N1].
Qed.
Lemma textified_det ts a b ids ids' : NoDup (map fst ts) -> (forall i, In i ids <-> In i ids') ->
  (forall i, In i ids -> exists x c m g, suitable ts i x c m g) -> textified ts a ids -> textified ts b ids' -> a = b.
Proof.
  intros ND Same Su A B. apply same_lookups.
  - rewrite (tx_keys _ _ _ A), (tx_keys _ _ _ B). reflexivity.
  - rewrite (tx_keys _ _ _ A). exact ND.
  - intros j. destruct (in_dec tident_eq_dec j ids) as [I|N].
    + destruct (Su _ I) as (x & c & m & g & Sj). pose proof Sj as ((ty & L & _) & _ & _ & (tc & Lc & _) & _).
      destruct (tx_done _ _ _ A _ _ _ _ _ _ _ I Sj L Lc) as [-> _].
      destruct (tx_done _ _ _ B _ _ _ _ _ _ _ (proj1 (Same _) I) Sj L Lc) as [-> _]. reflexivity.
    + destruct (Exists_dec (fun i => content_of ts i j) ids) as [E|E].
      { intros i. apply content_dec. }
      * apply Exists_exists in E. destruct E as (i & I & (ty' & x' & L' & V' & C')). destruct (Su _ I) as (x & c & m & g & Si).
        pose proof Si as ((ty & L & V) & _ & C & (tc & Lc & _) & _).
        assert (ty' = ty) by congruence. subst ty'. assert (x' = x) by congruence. subst x'. assert (j = c) by congruence. subst j.
        destruct (tx_done _ _ _ A _ _ _ _ _ _ _ I Si L Lc) as [_ ->].
        destruct (tx_done _ _ _ B _ _ _ _ _ _ _ (proj1 (Same _) I) Si L Lc) as [_ ->]. reflexivity.
      * assert (E' : forall i, In i ids -> ~ content_of ts i j) by (intros i I X; apply E, Exists_exists; eauto).
        rewrite (tx_rest _ _ _ A _ N E'). symmetry. apply (tx_rest _ _ _ B); [intros X; apply N, Same, X|]. intros i I. apply E', Same, I.
Qed.
