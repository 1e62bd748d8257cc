(** C67: mixed complex types as complex types with text elements. *)
From Verif Require Import MetaModel MetaSpec MetaProofs MetaProps OccursSpec OptModel OptSpec OptProofs UnionModel
  FlatModel FlatSpec FlatProofs FlatProps PassModel PassSpec PassMixProofs.
Local Open Scope string_scope.
Local Open Scope list_scope.

(** Provided that the contents of complex types are types of their own: whatever order
    the hash set gives, there is no panic, and the result is the same; the suitable types
    are no longer mixed, their contents have got texts; nothing else changes. *)
Theorem C67_any_order : forall o, NoDup (map fst (o_types o)) -> own_contents (o_types o) ->
  exists ts', map fst ts' = map fst (o_types o) /\
  (forall ids, NoDup ids -> (forall i, In i ids <-> In i (mixed_idents (o_types o))) ->
     exists o', simplify_in_order ids o = Ok o' /\ o_types o' = ts') /\
  (forall i x c m g ty tc, suitable (o_types o) i x c m g -> lookup i (o_types o) = Some ty -> lookup c (o_types o) = Some tc ->
     lookup i ts' = Some (set_variant ty (VComplex (ComplexMeta (cx_base x) (cx_content x) (cx_min x) (cx_max x) (cx_dynamic x) false (cx_attrs x)))) /\
     exists l, texts_added (gr_elements g) l /\ lookup c ts' = Some (set_variant tc
       (match m with GSequence => VSequence (GroupMeta (gr_mixed g) l) | _ => VChoice (GroupMeta (gr_mixed g) l) end))) /\
  (forall j, (forall x c m g, ~ suitable (o_types o) j x c m g) -> (forall i x m g, ~ suitable (o_types o) i x j m g) ->
     lookup j ts' = lookup j (o_types o)).
Proof.
  intros o ND Own.
  assert (NI : NoDup (mixed_idents (o_types o))) by (apply nodup_filter; exact ND).
  destruct (simplify_order o (mixed_idents (o_types o)) ND Own NI) as (o0 & E0 & T0); [tauto|].
  assert (Su : forall i, In i (mixed_idents (o_types o)) -> exists x c m g, suitable (o_types o) i x c m g)
    by (intros i; apply (suitable_in _ _ ND Own)).
  exists (o_types o0). split; [apply (tx_keys _ _ _ T0)|]. split; [|split].
  - intros ids Ni Same. destruct (simplify_order o ids ND Own Ni Same) as (o1 & E1 & T1). exists o1. split; [exact E1|].
    eapply textified_det; [exact ND|exact Same| |exact T1|exact T0]. intros i I. apply Su, Same, I.
  - intros i x c m g ty tc S L Lc.
    assert (I : In i (mixed_idents (o_types o))) by (apply (suitable_in _ _ ND Own); exists x, c, m, g; exact S).
    destruct (tx_done _ _ _ T0 _ _ _ _ _ _ _ I S L Lc) as [A B]. split; [exact A|].
    destruct (texted_added m g) as (l & Tl & S1 & S2). exists l. split; [exact Tl|]. rewrite B.
    destruct S as (_ & _ & _ & _ & [(-> & _)|(-> & _)]); [rewrite S1|rewrite S2]; reflexivity.
  - intros j N1 N2. apply (tx_rest _ _ _ T0).
    + intros I. destruct (Su _ I) as (x & c & m & g & S). exact (N1 _ _ _ _ S).
    + intros i I (ty & x & L & V & C). destruct (Su _ I) as (x' & c & m & g & S). pose proof S as ((ty' & L' & V') & _ & C' & _).
      assert (ty' = ty) by congruence. subst ty'. assert (x' = x) by congruence. subst x'. assert (c = j) by congruence. subst c.
      exact (N2 _ _ _ _ S).
Qed.
Print Assumptions C67_any_order.

(** A sequence: the children of the new type without the texts are children of the old
    one; and if the content is not optional, the new type takes all children of the old
    one with a text in front of each of them and at the end. *)
Theorem C67_sequence_partial : forall o i x c g ids o', NoDup (map fst (o_types o)) -> own_contents (o_types o) ->
  suitable (o_types o) i x c GSequence g -> (forall e, In e (gr_elements g) -> real_element e) ->
  NoDup ids -> (forall j, In j ids <-> In j (mixed_idents (o_types o))) -> simplify_in_order ids o = Ok o' ->
  (forall w, type_accepts (o_types o') i w -> type_accepts (o_types o) i (filter is_child w)) /\
  (1 <= cx_min x -> forall w u, type_accepts (o_types o) i w -> spaced w u ->
     exists w', type_accepts (o_types o') i w' /\ shape w' = u).
Proof.
  intros o i x c g ids o' ND Own S Real Ni Same E. destruct (simplify_order o ids ND Own Ni Same) as (o1 & E1 & T).
  assert (o1 = o') by congruence. subst o1. clear E1.
  assert (I : In i ids) by (apply Same, (suitable_in _ _ ND Own); exists x, c, GSequence, g; exact S).
  pose proof S as ((ty & L & V) & _ & C & (tc & Lc & G) & Q). destruct Q as [(_ & Q)|(Q & _)]; [|discriminate].
  destruct (tx_done _ _ _ T _ _ _ _ _ _ _ I S L Lc) as [A B].
  assert (Vc : m_variant tc = VSequence g) by (destruct (m_variant tc); try discriminate; injection G as ->; reflexivity).
  split.
  - intros w. eapply seq_sound; eassumption.
  - intros M w u. eapply seq_complete; eassumption.
Qed.
Print Assumptions C67_sequence_partial.

(** A choice: the same, with texts anywhere, if no alternative occurs more than once at
    least; and the texts can only be left out if the choice need not be made. *)
Theorem C67_choice_partial : forall o i x c g ids o', NoDup (map fst (o_types o)) -> own_contents (o_types o) ->
  suitable (o_types o) i x c GChoice g -> (forall e, In e (gr_elements g) -> real_element e) ->
  NoDup ids -> (forall j, In j ids <-> In j (mixed_idents (o_types o))) -> simplify_in_order ids o = Ok o' ->
  ((cx_min x = 0 \/ exists e, In e (gr_elements g) /\ el_min e = 0) ->
     forall w, type_accepts (o_types o') i w -> type_accepts (o_types o) i (filter is_child w)) /\
  ((forall e, In e (gr_elements g) -> el_min e <= 1) -> forall w u, type_accepts (o_types o) i w -> mixed_with_texts w u ->
     exists w', type_accepts (o_types o') i w' /\ shape w' = u).
Proof.
  intros o i x c g ids o' ND Own S Real Ni Same E. destruct (simplify_order o ids ND Own Ni Same) as (o1 & E1 & T).
  assert (o1 = o') by congruence. subst o1. clear E1.
  assert (I : In i ids) by (apply Same, (suitable_in _ _ ND Own); exists x, c, GChoice, g; exact S).
  pose proof S as ((ty & L & V) & _ & C & (tc & Lc & G) & Q). destruct Q as [(Q & _)|(_ & Q)]; [discriminate|].
  destruct (tx_done _ _ _ T _ _ _ _ _ _ _ I S L Lc) as [A B].
  assert (Vc : m_variant tc = VChoice g) by (destruct (m_variant tc); try discriminate; injection G as ->; reflexivity).
  split.
  - intros Z w. eapply choice_sound; eassumption.
  - intros M w u. eapply choice_complete; eassumption.
Qed.
Print Assumptions C67_choice_partial.

Definition ex_mixed (c : string) (mn : nat) (mx : max_occurs) (a : list attr_meta) : mtype :=
  mtype_new (VComplex (ComplexMeta BaseNone (Some (ex_id c)) mn mx false true a)).
Definition ex_simple (r : outcome pass_error optimizer) : types := match r with Ok o => o_types o | _ => [] end.
Definition ex_texts : types :=
  [(ex_id "s", ex_mixed "sc" 1 (Bounded 1) []); (ex_id "sc", ex_sequence [ex_el "a" 0 (Bounded 1); ex_one "b"]);
   (ex_id "c", ex_mixed "cc" 0 Unbounded []); (ex_id "cc", ex_choice [ex_one "a"; ex_one "b"]);
   (ex_id "n", ex_complex "nc" 1 (Bounded 1)); (ex_id "nc", ex_sequence [ex_one "a"])].

(** The hypotheses hold, and two orders give the same types. *)
Lemma ex_texts_own : own_contents ex_texts.
Proof.
  assert (C : forall i c, content_of ex_texts i c -> (i, c) = (ex_id "s", ex_id "sc") \/ (i, c) = (ex_id "c", ex_id "cc") \/ (i, c) = (ex_id "n", ex_id "nc")).
  { intros i c (ty & x & L & V & E). apply lookup_in in L. cbn in L.
    repeat (destruct L as [L|L]; [injection L as <- <-; try discriminate V; injection V as <-; injection E as <-; auto|]). destruct L. }
  split.
  - intros i c H d S. destruct (C _ _ H) as [E|[E|E]]; injection E as -> ->; destruct S as (ty & L & V); injection L as <-; discriminate V.
  - intros i j c H1 H2. destruct (C _ _ H1) as [E1|[E1|E1]], (C _ _ H2) as [E2|[E2|E2]]; apply pair_equal_spec in E1, E2; destruct E1 as [-> ->], E2 as [-> E2]; try reflexivity; discriminate E2.
Qed.
Example C67_case : own_contents ex_texts /\ NoDup (map fst ex_texts) /\ mixed_idents ex_texts = [ex_id "s"; ex_id "c"] /\
  simplify_in_order [ex_id "s"; ex_id "c"] (opt_new ex_texts) = simplify_in_order [ex_id "c"; ex_id "s"] (opt_new ex_texts) /\
  map (fun e => pi_name (el_ident e)) (match lookup (ex_id "sc") (ex_simple (simplify_in_order [ex_id "s"; ex_id "c"] (opt_new ex_texts))) with
    | Some ty => match m_variant ty with VSequence g => gr_elements g | _ => [] end | None => [] end) =
  [Named "text_before"; Named "a"; Named "text_after_a"; Named "b"; Named "text_after_b"].
Proof.
  split; [exact ex_texts_own|]. split.
  { repeat (constructor; [cbn; intros X; repeat (destruct X as [X|X]; [discriminate X|]); exact X|]). constructor. }
  split; [vm_compute; reflexivity|]. split; vm_compute; reflexivity.
Qed.

(** An optional content that is left out loses its text: the new type wants the element
    the text stands next to. *)
Definition ex_optional : types :=
  [(ex_id "s", ex_mixed "sc" 0 (Bounded 1) []); (ex_id "sc", ex_sequence [ex_one "a"])].
Theorem C67_optional_refuted : exists o' w u, simplify_in_order (mixed_idents ex_optional) (opt_new ex_optional) = Ok o' /\
  mixed_idents ex_optional = [ex_id "s"] /\
  type_accepts ex_optional (ex_id "s") w /\ spaced w u /\ ~ exists w', type_accepts (o_types o') (ex_id "s") w' /\ shape w' = u.
Proof.
  eexists. exists [], [None]. split; [vm_compute; reflexivity|]. split; [vm_compute; reflexivity|]. split; [|split; [constructor|]].
  - eexists. eexists. split; [reflexivity|]. split; [reflexivity|]. exists (ex_id "sc"), 0. split; [reflexivity|]. split; [split; cbn; lia|constructor].
  - intros (w & (ty & x & L & V & c & n & C & [W1 W2] & T) & Sh). vm_compute in L. injection L as <-. injection V as <-. injection C as <-. cbn in W2.
    destruct (times_few _ _ _ T W2) as [(-> & ->)|(-> & A)]; [discriminate|].
    match type of A with accepts ?ts ?c _ =>
      apply (proj1 (seq_accepts ts c (ex_sequence (with_texts [ex_one "a"])) (GroupMeta false (with_texts [ex_one "a"])) _ eq_refl eq_refl)) in A
    end. cbn in A.
    inversion A as [|? ? v1 w1 P1 A1]; subst. inversion A1 as [|? ? v2 w2 P2 A2]; subst.
    inversion P2 as [? ? ? ? G|? k G [K1 K2]]; subst; [discriminate|]. cbn in K1, K2. assert (k = 1) by lia. subst k.
    apply part_text in P1. destruct P1 as (k & -> & _). rewrite !shape_app in Sh. destruct k as [|[|k]]; cbn in Sh; discriminate.
Qed.
Print Assumptions C67_optional_refuted.

(** A choice that must be made is satisfied by a text. *)
Definition ex_must : types :=
  [(ex_id "c", ex_mixed "cc" 1 Unbounded []); (ex_id "cc", ex_choice [ex_one "a"])].
Theorem C67_minimum_refuted : exists o' w, simplify_in_order (mixed_idents ex_must) (opt_new ex_must) = Ok o' /\
  mixed_idents ex_must = [ex_id "c"] /\
  type_accepts (o_types o') (ex_id "c") w /\ ~ type_accepts ex_must (ex_id "c") (filter is_child w).
Proof.
  eexists. exists ([textc "text"] ++ []). split; [vm_compute; reflexivity|]. split; [vm_compute; reflexivity|]. split.
  - eexists. eexists. split; [reflexivity|]. split; [reflexivity|]. exists (ex_id "cc"), 1. split; [reflexivity|]. split; [split; cbn; auto|].
    constructor; [|constructor]. eapply acc_choice; [reflexivity|reflexivity|right; left; reflexivity|]. apply (part_text_some _ "text" 1). lia.
  - intros (ty & x & L & V & c & n & C & [W1 W2] & T). injection L as <-. injection V as <-. injection C as <-. cbn in W1.
    change (filter is_child ([textc "text"] ++ [])) with (@nil child) in T.
    inversion T as [|k v w A T' E1 E2]; subst; [lia|]. apply app_eq_nil in E2. destruct E2 as [-> ->].
    apply (proj1 (choice_accepts ex_must (ex_id "cc") (ex_choice [ex_one "a"]) (GroupMeta false [ex_one "a"]) _ eq_refl eq_refl)) in A.
    destruct A as (e & [<-|[]] & P).
    inversion P as [? ? ? ? G|? j G [K1 K2] E1 E2]; subst; [discriminate|]. cbn in K1. destruct j; [lia|]. cbn in E2. discriminate.
Qed.
Print Assumptions C67_minimum_refuted.

(** Two types that share their content, as they do after [remove_duplicates] and
    [resolve_typedefs]: the content gets its texts twice, so that members share a name; a
    type that is not mixed gets texts as well. *)
Definition ex_attr (s : string) : attr_meta := AttrMeta (ex_name s) (AVType (ex_id "str")) UseOptional Unqualified None None [] None.
Definition ex_shared : types :=
  [(ex_id "s", ex_mixed "sc" 1 (Bounded 1) []); (ex_id "t", ex_mixed "sc" 1 (Bounded 1) [ex_attr "x"]);
   (ex_id "sc", ex_sequence [ex_one "a"]); (ex_id "u", ex_complex "sc" 1 (Bounded 1))].
Theorem C67_shared_refuted : exists o' ty g, simplify_in_order (mixed_idents ex_shared) (opt_new ex_shared) = Ok o' /\
  lookup (ex_id "sc") (o_types o') = Some ty /\ m_variant ty = VSequence g /\
  (~ NoDup (map (fun e => el_ident e) (gr_elements g))) /\
  content_of (o_types o') (ex_id "u") (ex_id "sc") /\ existsb is_text (gr_elements g) = true /\ lookup (ex_id "u") ex_shared = Some (ex_complex "sc" 1 (Bounded 1)).
Proof.
  do 3 eexists. split; [vm_compute; reflexivity|]. split; [reflexivity|]. split; [reflexivity|]. split; [|split; [|split; reflexivity]].
  - intros N. cbn in N. inversion N as [|? ? A _]; subst. apply A. left. reflexivity.
  - do 2 eexists. split; [reflexivity|]. split; reflexivity.
Qed.
Print Assumptions C67_shared_refuted.

(** A content that is an alias: the type is selected, and handling it panics. *)
Definition ex_alias : types :=
  [(ex_id "s", ex_mixed "al" 1 (Bounded 1) []); (ex_id "al", ex_ref "sc"); (ex_id "sc", ex_sequence [ex_one "a"])].
Theorem C67_alias_refuted : mixed_idents ex_alias = [ex_id "s"] /\ simplify_in_order (mixed_idents ex_alias) (opt_new ex_alias) = Panic.
Proof. split; vm_compute; reflexivity. Qed.
Print Assumptions C67_alias_refuted.
