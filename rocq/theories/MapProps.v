(** Properties C26 and C27: attribute and namespace maps. *)
From Coq Require Import Permutation.
From Verif Require Import MapModel MapSpec MapProofs.

(** C26.  After any history of push, insert and extend the names are the mentioned
    names in the order of first mention, each once, and every name has the value
    its own history gives it. *)
Theorem C26_history : forall ops,
  map fst (attr_run ops) = first_occurrences (flat_map op_keys ops) /\
  NoDup (map fst (attr_run ops)) /\
  forall k, assoc k (attr_run ops) = key_value k ops.
Proof.
  intros ops.
  assert (H : map fst (attr_run ops) = first_occurrences (flat_map op_keys ops)) by exact (run_keys ops [] [] eq_refl).
  split; [exact H|]. split.
  - rewrite H. apply first_occ_nodup.
  - intros k. apply (run_value k ops []).
Qed.
Print Assumptions C26_history.

(** A push fails iff the name exists, and then changes nothing. *)
Theorem C26_push : forall m k v,
  (In k (map fst m) -> attr_push k v m = (m, Err k)) /\
  (~ In k (map fst m) -> attr_push k v m = (m ++ [(k, v)], Ok tt)).
Proof.
  intros m k v. unfold attr_push. destruct (assoc k m) eqn:E; split; intros H; try reflexivity.
  - apply assoc_in, (in_map fst) in E. contradiction.
  - apply assoc_none_in in E. contradiction.
Qed.
Print Assumptions C26_push.

(** An insertion keeps the place and returns the old value. *)
Theorem C26_insert : forall a k old b v, ~ In k (map fst a) ->
  attr_insert k v (a ++ (k, old) :: b) = (a ++ (k, v) :: b, Some old).
Proof.
  intros a k old b v H. unfold attr_insert. f_equal.
  - induction a as [|[k' v'] a IH]; cbn.
    + rewrite String.eqb_refl. reflexivity.
    + destruct (String.eqb_spec k k') as [->|]; [elim H; left; reflexivity|].
      f_equal. apply IH. intros X. apply H. right. exact X.
  - rewrite (@assoc_app bytes). apply assoc_none_in in H. rewrite H. cbn. rewrite String.eqb_refl. reflexivity.
Qed.
Print Assumptions C26_insert.

Theorem C26_insert_new : forall m k v, ~ In k (map fst m) -> attr_insert k v m = (m ++ [(k, v)], None).
Proof.
  intros m k v H. unfold attr_insert. f_equal; [|apply assoc_none_in, H].
  induction m as [|[k' v'] m IH]; cbn; [reflexivity|].
  destruct (String.eqb_spec k k') as [->|]; [elim H; left; reflexivity|].
  f_equal. apply IH. intros X. apply H. right. exact X.
Qed.
Print Assumptions C26_insert_new.

Local Open Scope string_scope.
Example ex_attrs :
  attr_run [OpPush "a" "1"; OpPush "b" "2"; OpPush "a" "3"; OpInsert "a" "4"; OpExtend [("c", "5"); ("b", "6")]]
  = [("a", "4"); ("b", "6"); ("c", "5")].
Proof. reflexivity. Qed.

(** C27.  Maps with the same bindings hash equally, in whatever order the hash table
    delivers their entries and however they were built; maps with different
    bindings feed different data to the hasher. *)
Theorem C27_hash : forall m1 m2, is_map m1 -> is_map m2 ->
  (same_bindings m1 m2 <-> namespaces_hash m1 = namespaces_hash m2).
Proof.
  intros m1 m2 H1 H2. split.
  - intros H. apply hash_perm; [exact H1|]. apply same_bindings_perm; assumption.
  - intros H k. apply hash_inj in H; [|exact H1|exact H2].
    destruct (assoc k m1) as [v|] eqn:E.
    + symmetry. apply assoc_map_in; [exact H2|]. apply (Permutation_in _ H). apply assoc_in, E.
    + symmetry. apply assoc_none_in. apply assoc_none_in in E. intros X. apply E.
      apply (Permutation_in _ (Permutation_sym (Permutation_map fst H))). exact X.
Qed.
Print Assumptions C27_hash.

(** Two insertion histories that leave the same last value for every prefix. *)
Theorem C27_histories : forall l1 l2 e1 e2,
  (forall k, assoc k (rev l1) = assoc k (rev l2)) ->
  Permutation e1 (namespaces_from l1) -> Permutation e2 (namespaces_from l2) ->
  namespaces_hash e1 = namespaces_hash e2.
Proof.
  intros l1 l2 e1 e2 H P1 P2.
  assert (L : forall l k, assoc k (namespaces_from l) = assoc k (rev l)).
  { intros l k. change (namespaces_from l) with (attr_extend l []). rewrite extend_value. cbn [assoc].
    induction l as [|[k' v] l IH] using rev_ind; cbn; [reflexivity|].
    rewrite fold_left_app, rev_app_distr. cbn. destruct (String.eqb k k'); [reflexivity|exact IH]. }
  assert (S : same_bindings (namespaces_from l1) (namespaces_from l2)).
  { intros k. rewrite !L. apply H. }
  rewrite <- (hash_perm _ _ (from_is_map l1) (Permutation_sym P1)).
  rewrite <- (hash_perm _ _ (from_is_map l2) (Permutation_sym P2)).
  apply C27_hash; [apply from_is_map|apply from_is_map|exact S].
Qed.
Print Assumptions C27_histories.

Example ex_namespaces :
  namespaces_hash [("b", "urn:2"); ("", "urn:1"); ("a", "urn:3")] = [""; "urn:1"; "a"; "urn:3"; "b"; "urn:2"] /\
  is_map [("b", "urn:2"); ("", "urn:1"); ("a", "urn:3")] /\
  namespaces_from [("a", "x"); ("b", "y"); ("a", "z")] = [("a", "z"); ("b", "y")].
Proof.
  split; [reflexivity|]. split; [|reflexivity].
  unfold is_map. cbn. repeat constructor; cbn; intuition discriminate.
Qed.
