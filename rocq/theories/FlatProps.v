(** C34, C35: flattening complex types and merging the cardinalities of choices. *)
From Verif Require Import MetaModel MetaSpec MetaProofs MetaProps OccursSpec OptModel OptProofs UnionModel UnionProofs FlatModel FlatSpec FlatProofs.
Local Open Scope string_scope.

(** Flattening one complex type: it accepts every sequence of children it accepted
    before, and no type but the complex type and its content changes. *)
Theorem C34_type_partial : forall fuel o o' i c, no_empty_choice (o_types o) -> distinct_alternatives (o_types o) ->
  content_of (o_types o) i c -> flatten_complex_type fuel o i = Some (Ok o') ->
  (forall j, j <> i -> j <> c -> lookup j (o_types o') = lookup j (o_types o)) /\
  (order_kept (o_types o) c -> forall w, type_accepts (o_types o) i w -> type_accepts (o_types o') i w).
Proof.
  intros fuel o o' i c NE DA (ty & x & L & V & C) F.
  destruct (one_type (o_types o) fuel o o' i c ty x NE DA L V C (fun t _ => eq_refl) F) as (A & _ & _ & B & _).
  split; [exact A|]. intros K w (ty' & x' & L' & V' & W). rewrite L in L'. injection L' as <-. rewrite V in V'. injection V' as <-. exact (B K w W).
Qed.
Print Assumptions C34_type_partial.

(** The whole pass: every complex type accepts every sequence of children it accepted
    before. *)
Theorem C34_pass_partial : forall fuel o o', NoDup (map fst (o_types o)) -> private_contents (o_types o) ->
  no_empty_choice (o_types o) -> distinct_alternatives (o_types o) -> flatten_complex_types fuel o = Some (Ok o') ->
  forall i c w, content_of (o_types o) i c -> order_kept (o_types o) c -> type_accepts (o_types o) i w -> type_accepts (o_types o') i w.
Proof. exact flatten_pass. Qed.
Print Assumptions C34_pass_partial.

(** The pass has no panic, and flattening a type ends if its groups do. *)
Theorem C34_no_panic : forall fuel o i, flatten_complex_type fuel o i <> Some Panic /\ flatten_complex_types fuel o <> Some Panic.
Proof.
  intros fuel o i. split; [apply flatten_no_panic|]. unfold flatten_complex_types. generalize (complex_idents (has_group_content (o_types o)) (o_types o)).
  intros ids. assert (H : Some (Ok o) <> Some (Panic : outcome flat_error optimizer)) by discriminate. revert H.
  generalize (Some (Ok o : outcome flat_error optimizer)). induction ids as [|j ids IH]; intros r H; cbn; [exact H|]. apply IH.
  destruct r as [[o1| |]|]; try exact H. pose proof (flatten_no_panic fuel o1 j) as N. destruct (flatten_complex_type fuel o1 j) as [[| |]|]; congruence.
Qed.
Print Assumptions C34_no_panic.

Theorem C34_ends : forall o i c, content_of (o_types o) i c -> finite_group (o_types o) c ->
  exists f0, forall fuel, f0 <= fuel -> flatten_complex_type fuel o i <> None.
Proof.
  intros o i c (ty & x & L & V & C) F. destruct (exec_ends _ _ F) as (f0 & H). exists f0. intros fuel Hf. specialize (H fuel Hf).
  unfold flatten_complex_type. rewrite L, V, C. destruct (flat_exec fuel (o_types o) c) as [[b| |]|]; try discriminate; [|contradiction].
  destruct (into_variant b) as [[occ v]|]; discriminate.
Qed.
Print Assumptions C34_ends.

(** Merging the cardinality of one choice. *)
Theorem C35_type_partial : forall o o' i c, content_of (o_types o) i c -> merge_choice_cardinality o i = Ok o' ->
  (forall j, j <> i -> j <> c -> lookup j (o_types o') = lookup j (o_types o)) /\
  (one_repeats (o_types o) i c -> forall w, type_accepts (o_types o) i w -> type_accepts (o_types o') i w).
Proof.
  intros o o' i c (ty & x & L & V & C) F.
  destruct (one_choice (o_types o) o o' i c ty x L V C (fun t _ => eq_refl) F L) as (A & _ & _ & B & _).
  split; [exact A|]. intros K w (ty' & x' & L' & V' & W). rewrite L in L'. injection L' as <-. rewrite V in V'. injection V' as <-. exact (B K w W).
Qed.
Print Assumptions C35_type_partial.

(** The whole pass: a complex type accepts every sequence of children it accepted before
    if its content is not a choice or at most one of the choice and its alternatives
    repeats. *)
Theorem C35_pass_partial : forall o o', NoDup (map fst (o_types o)) -> private_contents (o_types o) -> merge_choice_cardinalities o = Ok o' ->
  forall i c w, content_of (o_types o) i c ->
    (one_repeats (o_types o) i c \/ forall tc g, lookup c (o_types o) = Some tc -> m_variant tc <> VChoice g) ->
    type_accepts (o_types o) i w -> type_accepts (o_types o') i w.
Proof. exact choices_pass. Qed.
Print Assumptions C35_pass_partial.

(** ** Cases *)

Definition ex_name (s : string) : pident := PIdent 1 (Named s).
Definition ex_el (s : string) (mn : nat) (mx : max_occurs) : element_meta :=
  ElementMeta (ex_name s) (EVType (ex_id "str") ModeElement) Qualified 0 mn mx None [].
Definition ex_group (s : string) (mn : nat) (mx : max_occurs) : element_meta :=
  ElementMeta (ex_name s) (EVType (ex_id s) ModeGroup) Qualified 0 mn mx None [].
Definition ex_child (s : string) : child := (ex_name s, KType (ex_id "str")).
Definition ex_complex (c : string) (mn : nat) (mx : max_occurs) : mtype :=
  mtype_new (VComplex (ComplexMeta BaseNone (Some (ex_id c)) mn mx false false [])).
Definition ex_one (s : string) : element_meta := ex_el s 1 (Bounded 1).
Definition ex_sequence (l : list element_meta) : mtype := mtype_new (VSequence (GroupMeta false l)).
Definition ex_choice (l : list element_meta) : mtype := mtype_new (VChoice (GroupMeta false l)).
Definition ex_result (r : option (outcome flat_error optimizer)) : types := match r with Some (Ok o) => o_types o | _ => [] end.

(** A sequence with a nested, repeated choice and one with a nested sequence. *)
Definition ex_flat : types :=
  [(ex_id "C1", ex_sequence [ex_one "a"; ex_group "G" 0 (Bounded 3); ex_one "d"]);
   (ex_id "C2", ex_sequence [ex_one "a"; ex_group "H" 0 (Bounded 1)]);
   (ex_id "G", ex_choice [ex_one "b"; ex_el "c" 2 (Bounded 2)]);
   (ex_id "H", ex_sequence [ex_one "b"; ex_el "c" 1 Unbounded]);
   (ex_id "X", ex_complex "C1" 1 (Bounded 1)); (ex_id "Y", ex_complex "C2" 1 (Bounded 1))].

Ltac ex_lookup H := apply lookup_in in H; cbn in H;
  repeat (destruct H as [H|H]; [injection H as <- <-|]); [..|destruct H].
Ltac ex_nodup := repeat (constructor; [cbn; intros X; repeat (destruct X as [X|X]; [discriminate X|]); exact X|]); constructor.

Lemma ex_inside c t : inside ex_flat c t -> t = c \/ (c, t) = (ex_id "C1", ex_id "G") \/ (c, t) = (ex_id "C2", ex_id "H").
Proof.
  induction 1 as [|c ty m g e t t' L G I E R IH]; [auto|]. ex_lookup L; try discriminate G; cbn in G; injection G as <- <-; cbn in I;
    repeat (destruct I as [<-|I]; [try discriminate E; cbn in E; injection E as <-|]); try destruct I;
    (destruct IH as [->|[X|X]]; [auto|discriminate X|discriminate X]).
Qed.

Example C34_case : NoDup (map fst ex_flat) /\ private_contents ex_flat /\ no_empty_choice ex_flat /\ distinct_alternatives ex_flat /\
  order_kept ex_flat (ex_id "C1") /\ order_kept ex_flat (ex_id "C2") /\
  type_accepts ex_flat (ex_id "X") (map ex_child ["a"; "b"; "c"; "c"; "d"]) /\
  ex_result (flatten_complex_types 3 (opt_new ex_flat)) =
  [(ex_id "C1", ex_choice [ex_one "a"; ex_one "b"; ex_one "c"; ex_one "d"]);
   (ex_id "C2", ex_sequence [ex_one "a"; ex_el "b" 0 (Bounded 1); ex_el "c" 0 Unbounded]);
   (ex_id "G", ex_choice [ex_one "b"; ex_el "c" 2 (Bounded 2)]);
   (ex_id "H", ex_sequence [ex_one "b"; ex_el "c" 1 Unbounded]);
   (ex_id "X", ex_complex "C1" 2 (Bounded 8)); (ex_id "Y", ex_complex "C2" 1 (Bounded 1))].
Proof.
  split; [ex_nodup|]. split; [|split; [|split; [|split; [|split; [|split]]]]].
  - intros i j c d (ty & x & L & V & C) (ty' & x' & L' & V' & C') I.
    ex_lookup L; try discriminate V; cbn in V; injection V as <-; cbn in C; injection C as <-;
      (ex_lookup L'; try discriminate V'; cbn in V'; injection V' as <-; cbn in C'; injection C' as <-);
      try reflexivity; apply ex_inside in I; destruct I as [X|[X|X]]; discriminate X.
  - intros i ty g L V. ex_lookup L; try discriminate V. cbn in V. injection V as <-. discriminate.
  - intros i ty g l L V A. ex_lookup L; try discriminate V. cbn in V. injection V as <-.
    inversion A as [|? ? l1 _ A1| |]; subst; try discriminate. inversion A1 as [|? ? l2 _ A2| |]; subst; try discriminate.
    inversion A2; subst. ex_nodup.
  - right. intros O. inversion O as [i ty g L V H]; subst. cbn in L. injection L as <-. cbn in V. injection V as <-.
    destruct (H (ex_group "G" 0 (Bounded 3)) (ex_id "G")) as [M _]; [cbn; auto|reflexivity|]. specialize (M 3 (le_n 3)). cbn in M. lia.
  - left. exists [ex_name "a"; ex_name "b"; ex_name "c"]. split; [|ex_nodup].
    eapply nested_group; [reflexivity|reflexivity|]. apply na_child; [reflexivity|]. apply (na_group _ _ _ (ex_id "H") [ex_name "b"; ex_name "c"] []); [reflexivity| |constructor].
    eapply nested_group; [reflexivity|reflexivity|]. apply na_child; [reflexivity|]. apply na_child; [reflexivity|constructor].
  - eexists. eexists. split; [reflexivity|]. split; [reflexivity|]. exists (ex_id "C1"), 1. split; [reflexivity|]. split; [split; cbn; lia|].
    apply (times_more _ 0 (map ex_child ["a"; "b"; "c"; "c"; "d"]) []); [|constructor]. eapply acc_sequence; [reflexivity|reflexivity|].
    apply (io_cons _ _ _ [ex_child "a"]); [apply (part_child _ (ex_one "a") 1); [reflexivity|split; cbn; lia]|].
    apply (io_cons _ _ _ (map ex_child ["b"; "c"; "c"])).
    { apply (part_group _ _ (ex_id "G") 2); [reflexivity|split; cbn; lia|].
      apply (times_more _ 1 [ex_child "b"] [ex_child "c"; ex_child "c"]);
        [|apply (times_more _ 0 [ex_child "c"; ex_child "c"] []); [|constructor]].
      - eapply (acc_choice _ _ _ _ (ex_one "b")); [reflexivity|reflexivity|cbn; auto|].
        apply (part_child _ (ex_one "b") 1); [reflexivity|split; cbn; lia].
      - eapply (acc_choice _ _ _ _ (ex_el "c" 2 (Bounded 2))); [reflexivity|reflexivity|cbn; auto|].
        apply (part_child _ (ex_el "c" 2 (Bounded 2)) 2); [reflexivity|split; cbn; lia]. }
    apply (io_cons _ _ _ [ex_child "d"] []); [apply (part_child _ (ex_one "d") 1); [reflexivity|split; cbn; lia]|constructor].
  - vm_compute. reflexivity.
Qed.

Lemma accepts_once ts i c ty w : lookup i ts = Some ty -> ty = ex_complex c 1 (Bounded 1) -> (type_accepts ts i w <-> accepts ts (ex_id c) w).
Proof.
  intros L ->. split.
  - intros (ty & x & L' & V & c' & n & C & [W1 W2] & T). rewrite L in L'. injection L' as <-. cbn in V. injection V as <-. cbn in *. injection C as <-.
    assert (n = 1) by lia. subst n. inversion T as [|? v u A R]; subst. inversion R; subst. rewrite app_nil_r. exact A.
  - intros A. exists (ex_complex c 1 (Bounded 1)), (ComplexMeta BaseNone (Some (ex_id c)) 1 (Bounded 1) false false []). split; [exact L|]. split; [reflexivity|].
    exists (ex_id c), 1. split; [reflexivity|]. split; [split; cbn; lia|]. rewrite <- (app_nil_r w). constructor; [exact A|constructor].
Qed.

(** A name that occurs before and after a nested sequence: the order is lost. *)
Theorem C34_order_refuted : exists ts fuel o' i w, NoDup (map fst ts) /\ private_contents ts /\ no_empty_choice ts /\ distinct_alternatives ts /\
  flatten_complex_types fuel (opt_new ts) = Some (Ok o') /\ type_accepts ts i w /\ ~ type_accepts (o_types o') i w.
Proof.
  set (ts := [(ex_id "C", ex_sequence [ex_one "a"; ex_group "H" 1 (Bounded 1); ex_one "a"]); (ex_id "H", ex_sequence [ex_one "b"]);
              (ex_id "X", ex_complex "C" 1 (Bounded 1))]).
  exists ts, 3, (opt_new [(ex_id "C", ex_sequence [ex_el "a" 2 (Bounded 2); ex_one "b"]); (ex_id "H", ex_sequence [ex_one "b"]);
              (ex_id "X", ex_complex "C" 1 (Bounded 1))]), (ex_id "X"), (map ex_child ["a"; "b"; "a"]).
  split; [ex_nodup|]. split.
  { intros i j c d (ty & x & L & V & C) (ty' & x' & L' & V' & C') I.
    ex_lookup L; try discriminate V. ex_lookup L'; try discriminate V'. reflexivity. }
  split; [intros i ty g L V; ex_lookup L; discriminate V|]. split; [intros i ty g l L V; ex_lookup L; discriminate V|].
  split; [vm_compute; reflexivity|]. split.
  - eapply accepts_once; [reflexivity|reflexivity|]. eapply acc_sequence; [reflexivity|reflexivity|].
    apply (io_cons _ _ _ [ex_child "a"]); [apply (part_child _ (ex_one "a") 1); [reflexivity|split; cbn; lia]|].
    apply (io_cons _ _ _ [ex_child "b"]).
    { apply (part_group _ _ (ex_id "H") 1); [reflexivity|split; cbn; lia|]. apply (times_more _ 0 [ex_child "b"] []); [|constructor].
      eapply acc_sequence; [reflexivity|reflexivity|]. apply (io_cons _ _ _ [ex_child "b"] []); [apply (part_child _ (ex_one "b") 1); [reflexivity|split; cbn; lia]|constructor]. }
    apply (io_cons _ _ _ [ex_child "a"] []); [apply (part_child _ (ex_one "a") 1); [reflexivity|split; cbn; lia]|constructor].
  - intros A. eapply accepts_once in A; [|reflexivity|reflexivity]. eapply accepts_lang in A; [|reflexivity|reflexivity]. cbn in A.
    inversion A as [|e es v w P R E1 E2]; subst. apply leaf_part in P; [|reflexivity]. destruct P as (n & [N1 N2] & ->). cbn in N1, N2.
    assert (n = 2) by lia. subst n. discriminate E2.
Qed.
Print Assumptions C34_order_refuted.

(** Two complex types with the same content: only the first one gets the bounds of the
    content. *)
Theorem C34_shared_refuted : exists ts fuel o' i c w, NoDup (map fst ts) /\ no_empty_choice ts /\ distinct_alternatives ts /\
  content_of ts i c /\ order_kept ts c /\
  flatten_complex_types fuel (opt_new ts) = Some (Ok o') /\ type_accepts ts i w /\ ~ type_accepts (o_types o') i w.
Proof.
  set (ts := [(ex_id "C", ex_sequence [ex_one "a"; ex_group "G" 1 (Bounded 1)]); (ex_id "G", ex_choice [ex_one "b"; ex_one "c"]);
              (ex_id "X", ex_complex "C" 1 (Bounded 1)); (ex_id "Y", ex_complex "C" 1 (Bounded 1))]).
  exists ts, 3, (opt_new [(ex_id "C", ex_choice [ex_one "a"; ex_one "b"; ex_one "c"]); (ex_id "G", ex_choice [ex_one "b"; ex_one "c"]);
              (ex_id "X", ex_complex "C" 2 (Bounded 2)); (ex_id "Y", ex_complex "C" 1 (Bounded 1))]), (ex_id "Y"), (ex_id "C"), (map ex_child ["a"; "b"]).
  split; [ex_nodup|]. split; [|split; [|split; [|split; [|split; [vm_compute; reflexivity|split]]]]].
  - intros i ty g L V. ex_lookup L; try discriminate V. cbn in V. injection V as <-. discriminate.
  - intros i ty g l L V A. ex_lookup L; try discriminate V. cbn in V. injection V as <-.
    inversion A as [|? ? l1 _ A1| |]; subst; try discriminate. inversion A1 as [|? ? l2 _ A2| |]; subst; try discriminate.
    inversion A2; subst. ex_nodup.
  - eexists. eexists. split; [reflexivity|]. split; reflexivity.
  - right. intros O. inversion O as [i ty g L V H]; subst. cbn in L. injection L as <-. cbn in V. injection V as <-.
    destruct (H (ex_group "G" 1 (Bounded 1)) (ex_id "G")) as [_ M]; [cbn; auto|reflexivity|]. inversion M as [i ty g L V]; subst. cbn in L. injection L as <-. discriminate V.
  - eapply accepts_once; [reflexivity|reflexivity|]. eapply acc_sequence; [reflexivity|reflexivity|].
    apply (io_cons _ _ _ [ex_child "a"]); [apply (part_child _ (ex_one "a") 1); [reflexivity|split; cbn; lia]|].
    apply (io_cons _ _ _ [ex_child "b"] []); [|constructor].
    apply (part_group _ _ (ex_id "G") 1); [reflexivity|split; cbn; lia|]. apply (times_more _ 0 [ex_child "b"] []); [|constructor].
    eapply (acc_choice _ _ _ _ (ex_one "b")); [reflexivity|reflexivity|cbn; auto|]. apply (part_child _ (ex_one "b") 1); [reflexivity|split; cbn; lia].
  - intros A. eapply accepts_once in A; [|reflexivity|reflexivity]. eapply accepts_lang in A; [|reflexivity|reflexivity]. cbn in A.
    destruct A as (e & I & P). assert (E : leaf e /\ el_max e = Bounded 1) by (repeat (destruct I as [<-|I]; [split; reflexivity|]); destruct I).
    apply leaf_part in P; [|apply E]. destruct (leaf_word _ _ P) as (_ & _ & W). rewrite (proj2 E) in W. cbn in W. lia.
Qed.
Print Assumptions C34_shared_refuted.

(** The same name in a choice and in a choice nested in it: both are demanded. *)
Theorem C34_repeated_refuted : exists ts fuel o' i c w, NoDup (map fst ts) /\ private_contents ts /\ no_empty_choice ts /\
  content_of ts i c /\ order_kept ts c /\
  flatten_complex_types fuel (opt_new ts) = Some (Ok o') /\ type_accepts ts i w /\ ~ type_accepts (o_types o') i w.
Proof.
  set (ts := [(ex_id "C", ex_choice [ex_one "a"; ex_group "G" 1 (Bounded 1)]); (ex_id "G", ex_choice [ex_one "a"; ex_one "b"]);
              (ex_id "X", ex_complex "C" 1 (Bounded 1))]).
  exists ts, 3, (opt_new [(ex_id "C", ex_choice [ex_el "a" 2 (Bounded 2); ex_one "b"]); (ex_id "G", ex_choice [ex_one "a"; ex_one "b"]);
              (ex_id "X", ex_complex "C" 1 (Bounded 1))]), (ex_id "X"), (ex_id "C"), (map ex_child ["a"]).
  split; [ex_nodup|]. split; [|split; [|split; [|split; [|split; [vm_compute; reflexivity|split]]]]].
  - intros i j c d (ty & x & L & V & C) (ty' & x' & L' & V' & C') I.
    ex_lookup L; try discriminate V. ex_lookup L'; try discriminate V'. reflexivity.
  - intros i ty g L V. ex_lookup L; try discriminate V; cbn in V; injection V as <-; discriminate.
  - eexists. eexists. split; [reflexivity|]. split; reflexivity.
  - right. intros O. inversion O as [i ty g L V H]; subst. cbn in L. injection L as <-. discriminate V.
  - eapply accepts_once; [reflexivity|reflexivity|].
    eapply (acc_choice _ _ _ _ (ex_one "a")); [reflexivity|reflexivity|cbn; auto|]. apply (part_child _ (ex_one "a") 1); [reflexivity|split; cbn; lia].
  - intros A. eapply accepts_once in A; [|reflexivity|reflexivity]. eapply accepts_lang in A; [|reflexivity|reflexivity]. cbn in A.
    destruct A as (e & I & P). destruct I as [<-|[<-|[]]].
    + apply leaf_part in P; [|reflexivity]. destruct (leaf_word _ _ P) as (_ & W & _). cbn in W. lia.
    + apply leaf_part in P; [|reflexivity]. destruct (leaf_word _ _ P) as (F & _). inversion F as [|? ? E]. discriminate E.
Qed.
Print Assumptions C34_repeated_refuted.

(** A choice of nothing that may be left out. *)
Theorem C34_empty_refuted : exists ts fuel o' i c, NoDup (map fst ts) /\ private_contents ts /\ distinct_alternatives ts /\
  content_of ts i c /\ order_kept ts c /\
  flatten_complex_types fuel (opt_new ts) = Some (Ok o') /\ type_accepts ts i [] /\ ~ type_accepts (o_types o') i [].
Proof.
  set (ts := [(ex_id "C", ex_choice [ex_one "a"; ex_group "G" 0 (Bounded 1)]); (ex_id "G", ex_choice []);
              (ex_id "X", ex_complex "C" 1 (Bounded 1))]).
  exists ts, 3, (opt_new [(ex_id "C", ex_choice [ex_one "a"]); (ex_id "G", ex_choice []);
              (ex_id "X", ex_complex "C" 1 (Bounded 1))]), (ex_id "X"), (ex_id "C").
  split; [ex_nodup|]. split; [|split; [|split; [|split; [|split; [vm_compute; reflexivity|split]]]]].
  - intros i j c d (ty & x & L & V & C) (ty' & x' & L' & V' & C') I.
    ex_lookup L; try discriminate V. ex_lookup L'; try discriminate V'. reflexivity.
  - intros i ty g l L V A. ex_lookup L; try discriminate V; cbn in V; injection V as <-; [|inversion A; constructor].
    inversion A as [|? ? l1 _ A1| |]; subst; try discriminate.
    inversion A1 as [|? ? l2 G2|? ? t2 ty2 g2 l1' l2 G2 L2 V2 B1 B2|? ? t2 l2 G2 N2 B]; subst; [discriminate G2| |].
    + cbn in G2. injection G2 as <-. cbn in L2. injection L2 as <-. cbn in V2. injection V2 as <-. inversion B1; subst. inversion B2; subst. ex_nodup.
    + cbn in G2. injection G2 as <-. exfalso. eapply N2; reflexivity.
  - eexists. eexists. split; [reflexivity|]. split; reflexivity.
  - right. intros O. inversion O as [i ty g L V H]; subst. cbn in L. injection L as <-. discriminate V.
  - eapply accepts_once; [reflexivity|reflexivity|].
    eapply (acc_choice _ _ _ _ (ex_group "G" 0 (Bounded 1))); [reflexivity|reflexivity|cbn; auto|].
    apply (part_group _ _ (ex_id "G") 0); [reflexivity|split; cbn; lia|constructor].
  - intros A. eapply accepts_once in A; [|reflexivity|reflexivity]. eapply accepts_lang in A; [|reflexivity|reflexivity]. cbn in A.
    destruct A as (e & [<-|[]] & P). apply leaf_part in P; [|reflexivity]. destruct (leaf_word _ _ P) as (_ & W & _). cbn in W. lia.
Qed.
Print Assumptions C34_empty_refuted.

(** A group inside of itself is never flattened: no amount of fuel helps. *)
Theorem C34_endless_refuted : exists ts, NoDup (map fst ts) /\ forall fuel, flatten_complex_types fuel (opt_new ts) = None.
Proof.
  set (ts := [(ex_id "C", ex_sequence [ex_group "C" 0 (Bounded 1)]); (ex_id "X", ex_complex "C" 1 (Bounded 1))]).
  exists ts. split; [ex_nodup|]. intros fuel.
  assert (E : flat_exec fuel ts (ex_id "C") = None).
  { induction fuel as [|fuel IH]; [reflexivity|].
    change (flat_loop (flat_exec fuel ts) [] [ex_group "C" 0 (Bounded 1)] (builder_new GSequence (GroupMeta false [ex_group "C" 0 (Bounded 1)])) = None).
    cbn [flat_loop el_variant ex_group]. rewrite IH. reflexivity. }
  assert (T : flatten_complex_type fuel (opt_new ts) (ex_id "X") = None).
  { unfold flatten_complex_type. change (lookup (ex_id "X") (o_types (opt_new ts))) with (Some (ex_complex "C" 1 (Bounded 1))).
    cbn [m_variant ex_complex mtype_new cx_content]. change (o_types (opt_new ts)) with ts. rewrite E. reflexivity. }
  unfold flatten_complex_types. change (complex_idents _ _) with [ex_id "X"]. cbn [fold_left]. rewrite T. reflexivity.
Qed.
Print Assumptions C34_endless_refuted.

(** ** Choices *)

Definition ex_choices (mn : nat) (mx : max_occurs) (l : list element_meta) : types :=
  [(ex_id "C", ex_choice l); (ex_id "X", ex_complex "C" mn mx)].
Definition ex_merged (r : outcome flat_error optimizer) : types := match r with Ok o => o_types o | _ => [] end.

Example C35_case : let ts := ex_choices 1 (Bounded 1) [ex_el "a" 0 (Bounded 3); ex_el "b" 2 (Bounded 2)] in
  NoDup (map fst ts) /\ private_contents ts /\ one_repeats ts (ex_id "X") (ex_id "C") /\
  type_accepts ts (ex_id "X") (map ex_child ["a"; "a"; "a"]) /\
  ex_merged (merge_choice_cardinalities (opt_new ts)) = ex_choices 0 (Bounded 3) [ex_one "a"; ex_one "b"].
Proof.
  split; [ex_nodup|]. split; [|split; [|split; [|vm_compute; reflexivity]]].
  - intros i j c d (ty & x & L & V & C) (ty' & x' & L' & V' & C') I.
    ex_lookup L; try discriminate V. ex_lookup L'; try discriminate V'. reflexivity.
  - do 4 eexists. do 4 (split; [reflexivity|]). split; [left; intros n H; exact H|].
    intros e t I G. repeat (destruct I as [<-|I]; [discriminate G|]). destruct I.
  - eapply accepts_once; [reflexivity|reflexivity|].
    eapply (acc_choice _ _ _ _ (ex_el "a" 0 (Bounded 3))); [reflexivity|reflexivity|cbn; auto|].
    apply (part_child _ (ex_el "a" 0 (Bounded 3)) 3); [reflexivity|split; cbn; lia].
Qed.

(** Two choices of two children each: four children, but the bound is two. *)
Theorem C35_product_refuted : exists ts o' i w, NoDup (map fst ts) /\ private_contents ts /\
  merge_choice_cardinalities (opt_new ts) = Ok o' /\ type_accepts ts i w /\ ~ type_accepts (o_types o') i w.
Proof.
  set (ts := ex_choices 2 (Bounded 2) [ex_el "a" 2 (Bounded 2)]).
  exists ts, (opt_new (ex_choices 1 (Bounded 2) [ex_one "a"])), (ex_id "X"), (map ex_child ["a"; "a"; "a"; "a"]).
  split; [ex_nodup|]. split; [|split; [vm_compute; reflexivity|split]].
  - intros i j c d (ty & x & L & V & C) (ty' & x' & L' & V' & C') I.
    ex_lookup L; try discriminate V. ex_lookup L'; try discriminate V'. reflexivity.
  - eexists. eexists. split; [reflexivity|]. split; [reflexivity|]. exists (ex_id "C"), 2. split; [reflexivity|]. split; [split; cbn; lia|].
    assert (P : accepts ts (ex_id "C") (map ex_child ["a"; "a"])).
    { eapply (acc_choice _ _ _ _ (ex_el "a" 2 (Bounded 2))); [reflexivity|reflexivity|cbn; auto|].
      apply (part_child _ (ex_el "a" 2 (Bounded 2)) 2); [reflexivity|split; cbn; lia]. }
    apply (times_more _ 1 (map ex_child ["a"; "a"]) (map ex_child ["a"; "a"])); [exact P|].
    apply (times_more _ 0 (map ex_child ["a"; "a"]) []); [exact P|constructor].
  - intros (ty & x & L & V & c & n & C & W & T). cbn in L. injection L as <-. cbn in V. injection V as <-. cbn in C. injection C as <-.
    destruct W as [_ W]. cbn in W.
    assert (B : forall v, accepts (o_types (opt_new (ex_choices 1 (Bounded 2) [ex_one "a"]))) (ex_id "C") v -> Forall (fun _ => True) v /\ within 0 (Bounded 1) (length v)).
    { intros v A. eapply accepts_lang in A; [|reflexivity|reflexivity]. destruct A as (e & [<-|[]] & P). apply leaf_part in P; [|reflexivity].
      destruct (leaf_word _ _ P) as (_ & _ & X). split; [apply Forall_forall; auto|]. split; [lia|exact X]. }
    destruct (times_bounds _ _ 0 (Bounded 1) n _ 0 (Bounded 2) B T) as (_ & _ & X); [split; [lia|exact W]|]. cbn in X. lia.
Qed.
Print Assumptions C35_product_refuted.

(** Two complex types with the same content: only the first one gets the bounds. *)
Theorem C35_shared_refuted : exists ts o' i c w, NoDup (map fst ts) /\ content_of ts i c /\ one_repeats ts i c /\
  merge_choice_cardinalities (opt_new ts) = Ok o' /\ type_accepts ts i w /\ ~ type_accepts (o_types o') i w.
Proof.
  set (ts := app (ex_choices 1 (Bounded 1) [ex_el "a" 0 (Bounded 3)]) [(ex_id "Y", ex_complex "C" 1 (Bounded 1))]).
  exists ts, (opt_new (app (ex_choices 0 (Bounded 3) [ex_one "a"]) [(ex_id "Y", ex_complex "C" 1 (Bounded 1))])), (ex_id "Y"), (ex_id "C"), (map ex_child ["a"; "a"]).
  split; [ex_nodup|]. split; [|split; [|split; [vm_compute; reflexivity|split]]].
  - eexists. eexists. split; [reflexivity|]. split; reflexivity.
  - do 4 eexists. do 4 (split; [reflexivity|]). split; [left; intros n H; exact H|].
    intros e t I G. repeat (destruct I as [<-|I]; [discriminate G|]). destruct I.
  - eapply accepts_once; [reflexivity|reflexivity|].
    eapply (acc_choice _ _ _ _ (ex_el "a" 0 (Bounded 3))); [reflexivity|reflexivity|cbn; auto|].
    apply (part_child _ (ex_el "a" 0 (Bounded 3)) 2); [reflexivity|split; cbn; lia].
  - intros A. eapply accepts_once in A; [|reflexivity|reflexivity]. eapply accepts_lang in A; [|reflexivity|reflexivity]. cbn in A.
    destruct A as (e & [<-|[]] & P). apply leaf_part in P; [|reflexivity]. destruct (leaf_word _ _ P) as (_ & _ & W). cbn in W. lia.
Qed.
Print Assumptions C35_shared_refuted.

(** A content that is an alias of a choice makes the pass panic. *)
Theorem C35_alias_refuted : exists ts, NoDup (map fst ts) /\ merge_choice_cardinalities (opt_new ts) = Panic.
Proof.
  exists [(ex_id "C", ex_ref "D"); (ex_id "D", ex_choice [ex_one "a"]); (ex_id "X", ex_complex "C" 1 (Bounded 1))].
  split; [ex_nodup|vm_compute; reflexivity].
Qed.
Print Assumptions C35_alias_refuted.
