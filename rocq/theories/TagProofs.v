(** Proofs about the names of elements. *)
From Verif Require Import SerHelperModel DeModel DeSpec DeProofs WrapModel GenModel TagSpec.
Local Open Scope string_scope.

Lemma tag_check h e n ns name : tag_of e n ->
  check_tag h e ns name =
  match ns with
  | Some ns => match resolve_local_name (d_res h) n ns with Some l => String.eqb l name | None => false end
  | None => String.eqb (local_name n) name
  end.
Proof. intros (a & [-> | ->]); reflexivity. Qed.

Lemma prefix_resolved ops h p l n b : well_nested (events_of ops) -> dh_run dhelper_default ops = Some h ->
  split_colon n = Some (p, l) -> p <> "xmlns" ->
  match fst (dh_resolve (d_res h) n b) with
  | RBound ns => stands_for (enclosing (events_of ops)) p ns
  | _ => forall ns, ~ stands_for (enclosing (events_of ops)) p ns
  end /\ snd (dh_resolve (d_res h) n b) = l.
Proof.
  intros HW HR HS N. destruct (hinv_run ops h HW HR) as [_ _ Hr _].
  unfold dh_resolve, resolve. rewrite HS, Hr. cbn [r_bindings fst snd].
  split; [|reflexivity]. unfold frames. rewrite find_prefix_scope. unfold stands_for, DeSpec.bound.
  destruct (String.eqb_spec p "xml") as [->|X]; [left; auto|].
  destruct (String.eqb_spec p "xmlns") as [->|Y]; [congruence|].
  destruct (in_scope (Some p) (enclosing (events_of ops))) as [[|c s]|].
  - intros ns [[E _]|(_ & _ & E & F)]; congruence.
  - right. repeat split; auto. discriminate.
  - intros ns [[E _]|(_ & _ & E & F)]; congruence.
Qed.

Lemma stands_for_fun els p a b : stands_for els p a -> stands_for els p b -> a = b.
Proof.
  intros [[-> ->]|(N & _ & E & _)] [[F ->]|(M & _ & F & _)]; congruence.
Qed.

Lemma accepts ops h e n ns name : well_nested (events_of ops) -> dh_run dhelper_default ops = Some h ->
  tag_of e n -> expanded (enclosing (events_of ops)) n (ns, name) -> check_tag h e ns name = true.
Proof.
  intros HW HR HT HX. rewrite (tag_check _ _ _ _ _ HT). unfold expanded in HX.
  destruct (split_colon n) as [[p l]|] eqn:HS.
  - destruct HX as (u & Su & E). injection E as -> ->.
    assert (N : p <> "xmlns") by (intros ->; destruct Su as [[E _]|(_ & E & _)]; congruence).
    destruct (prefix_resolved ops h p l n true HW HR HS N) as [Q L]. unfold resolve_local_name.
    destruct (dh_resolve (d_res h) n true) as [[|v|v] l0]; cbn in Q, L; subst l0.
    + destruct (Q u Su).
    + rewrite (stands_for_fun _ _ _ _ Q Su), String.eqb_refl. apply String.eqb_refl.
    + destruct (Q u Su).
  - assert (E : n = name) by (destruct HX as [(u & _ & E)|[_ E]]; congruence). subst name.
    destruct ns as [ns|].
    + unfold resolve_local_name, dh_resolve, resolve. rewrite HS. apply String.eqb_refl.
    + unfold local_name. rewrite HS. apply String.eqb_refl.
Qed.

Lemma prefixed_bound r n p l b : split_colon n = Some (p, l) -> fst (dh_resolve r n b) <> RUnbound.
Proof.
  intros HS. unfold dh_resolve, resolve. rewrite HS. cbn [fst]. destruct (String.eqb p "xml"); [discriminate|].
  destruct (String.eqb p "xmlns"); [discriminate|]. destruct (find_prefix _ _) as [[|]|]; discriminate.
Qed.

Lemma prefixed_exact ops h e n p l ns name : well_nested (events_of ops) -> dh_run dhelper_default ops = Some h ->
  tag_of e n -> split_colon n = Some (p, l) -> p <> "xmlns" ->
  check_tag h e (Some ns) name = true <-> expanded (enclosing (events_of ops)) n (Some ns, name).
Proof.
  intros HW HR HT HS N. split; [|apply accepts; assumption].
  rewrite (tag_check _ _ _ _ _ HT). unfold expanded. rewrite HS.
  destruct (prefix_resolved ops h p l n true HW HR HS N) as [Q L]. unfold resolve_local_name.
  pose proof (prefixed_bound (d_res h) n p l true HS) as B.
  destruct (dh_resolve (d_res h) n true) as [[|v|v] l0]; cbn in Q, L, B; subst l0; try discriminate; [congruence|].
  destruct (String.eqb_spec v ns) as [->|X]; [|discriminate]. intros E. apply String.eqb_eq in E. subst. eauto.
Qed.

Lemma unprefixed_local h e n ns name : tag_of e n -> split_colon n = None ->
  check_tag h e ns name = true <-> n = name.
Proof.
  intros HT HS. rewrite (tag_check _ _ _ _ _ HT). destruct ns as [ns|].
  - unfold resolve_local_name, dh_resolve, resolve. rewrite HS. apply String.eqb_eq.
  - unfold local_name. rewrite HS. apply String.eqb_eq.
Qed.

Lemma check_local h e ns name : check_tag h e ns name = true -> exists n, tag_of e n /\ local_name n = name.
Proof.
  intros C. assert (T : exists n, tag_of e n) by (destruct e; try discriminate C; do 2 eexists; eauto).
  destruct T as (n & T). exists n. split; [exact T|]. rewrite (tag_check _ _ _ _ _ T) in C.
  destruct ns as [ns|]; [|apply String.eqb_eq, C]. unfold resolve_local_name, dh_resolve, resolve in C. unfold local_name.
  destruct (split_colon n) as [[p l]|]; cbn [fst snd] in C.
  - repeat match type of C with context [if ?b then _ else _] => destruct b end; try discriminate C; try (apply String.eqb_eq, C).
    all: destruct (find_prefix (Some p) (r_bindings (d_res h))) as [[|? ?]|]; try discriminate C.
    all: destruct (String.eqb _ ns) in C; [apply String.eqb_eq, C|discriminate C].
  - apply String.eqb_eq, C.
Qed.
