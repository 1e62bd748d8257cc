(** C85: the names of elements. *)
From Verif Require Import Utf8 SerHelperModel DocModel DeModel DeSpec WrapModel GenModel GenSpec TextSpec DocSpec
  TagSpec TagProofs GenProps DocProps.
Local Open Scope string_scope.

(** An element with the name that a schema declares is recognised, whatever its prefix. *)
Theorem C85_accepts : forall ops h e n ns name,
  well_nested (events_of ops) -> dh_run dhelper_default ops = Some h -> tag_of e n ->
  expanded (enclosing (events_of ops)) n (ns, name) -> check_tag h e ns name = true.
Proof. exact accepts. Qed.
Print Assumptions C85_accepts.

(** An element with a prefix is recognised only if its name is the declared one, provided
    that the declared name has a namespace. *)
Theorem C85_prefixed_partial : forall ops h e n p l ns name,
  well_nested (events_of ops) -> dh_run dhelper_default ops = Some h -> tag_of e n ->
  split_colon n = Some (p, l) -> p <> "xmlns" ->
  check_tag h e (Some ns) name = true <-> expanded (enclosing (events_of ops)) n (Some ns, name).
Proof. exact prefixed_exact. Qed.
Print Assumptions C85_prefixed_partial.

(** In all cases the local name is the declared one. *)
Theorem C85_local : forall h e ns name, check_tag h e ns name = true ->
  exists n, tag_of e n /\ match split_colon n with Some (_, l) => l = name | None => n = name end.
Proof.
  intros h e ns name C. destruct (check_local h e ns name C) as (n & T & L). exists n. split; [exact T|].
  unfold local_name in L. destruct (split_colon n) as [[p l]|]; exact L.
Qed.
Print Assumptions C85_local.

(** Inside of [<a:r xmlns:a="urn:a"><b:x xmlns:b="urn:b" xmlns="urn:c">]. *)
Definition name_ops (p : bytes) : list dop :=
  [DEvent (EStart "a:r" [("xmlns:a", "urn:a")]); DEvent (EStart (p ++ ":x") [("xmlns:b", "urn:b"); ("xmlns", "urn:c")])].
Lemma name_nested p : well_nested (events_of (name_ops p)).
Proof.
  intros q s E. cbn in E. repeat (destruct q as [|x q]; [reflexivity|injection E as <- E]).
  symmetry in E; apply app_eq_nil in E; destruct E as [-> _]; reflexivity.
Qed.
Example C85_case : exists h, dh_run dhelper_default (name_ops "b") = Some h /\
  expanded (enclosing (events_of (name_ops "b"))) "b:x" (Some "urn:b", "x") /\
  check_tag h (EStart "b:x" []) (Some "urn:b") "x" = true /\
  check_tag h (EStart "a:x" []) (Some "urn:b") "x" = false /\
  expanded (enclosing (events_of (name_ops "b"))) "x" (Some "urn:c", "x").
Proof.
  eexists. split; [reflexivity|]. split.
  - exists "urn:b". split; [|reflexivity]. right. repeat split; discriminate.
  - split; [reflexivity|]. split; [reflexivity|]. left. exists "urn:c". repeat split. discriminate.
Qed.

(** ** Where it is false *)

(** A name without prefix is recognised in every namespace, and outside of all. *)
Theorem C85_unprefixed_refuted : forall ops h e n ns, tag_of e n -> split_colon n = None ->
  dh_run dhelper_default ops = Some h -> check_tag h e ns n = true.
Proof. intros. apply (unprefixed_local h e n ns n); auto. Qed.
Print Assumptions C85_unprefixed_refuted.

(** A declared name without namespace is recognised with every prefix, bound or not. *)
Theorem C85_prefix_refuted : forall h e n p l, tag_of e n -> split_colon n = Some (p, l) -> check_tag h e None l = true.
Proof.
  intros h e n p l T S. rewrite (tag_check _ _ _ _ _ T). unfold local_name. rewrite S. apply String.eqb_refl.
Qed.
Print Assumptions C85_prefix_refuted.

(** A choice of two elements [x] of different namespaces and types:
    [<r><x xmlns="urn:b">t</x></r>] is read as the first of them, although it is the second;
    with a prefix it is read as it should be. *)
Definition two_env (ty : nat) : tdef :=
  match ty with
  | 0 => TComplex false 1 (Bounded 1) CChoice
           [PElement 1 (Bounded 1) (Some "urn:a") "x" 1; PElement 1 (Bounded 1) (Some "urn:b") "x" 2]
  | _ => TSimple
  end.
Definition two_doc (tag key : bytes) : list event :=
  [EStart "r" []; EStart tag [(key, "urn:b")]; EText "t"; EEnd tag; EEnd "r"].
Theorem C85_choice_refuted :
  expanded (enclosing [EStart "r" []; EStart "x" [("xmlns", "urn:b")]]) "x" (Some "urn:b", "x") /\
  read flat two_env 3 0 (two_doc "x" "xmlns") = RDone (VEnum 0 [DocModel.VText "t"]) [] /\
  read flat two_env 3 0 (two_doc "b:x" "xmlns:b") = RDone (VEnum 1 [DocModel.VText "t"]) [].
Proof.
  split; [|split; vm_compute; reflexivity]. left. exists "urn:b". repeat split. discriminate.
Qed.
Print Assumptions C85_choice_refuted.
