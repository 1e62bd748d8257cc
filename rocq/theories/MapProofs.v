From Coq Require Import Permutation Sorted.
From Verif Require Import MapModel MapSpec.

(** ** Attributes *)

Lemma assoc_index_insert k v m x : assoc x (index_insert k v m) = if String.eqb x k then Some v else assoc x m.
Proof.
  induction m as [|[k' v'] m IH]; cbn; [reflexivity|].
  destruct (String.eqb_spec k k') as [<-|N]; cbn.
  - destruct (String.eqb x k); reflexivity.
  - rewrite IH. destruct (String.eqb_spec x k') as [E1|E1], (String.eqb_spec x k) as [E2|E2]; congruence.
Qed.

Lemma assoc_none_in {V} k (m : list (bytes * V)) : assoc k m = None <-> ~ In k (map fst m).
Proof.
  induction m as [|[k' v'] m IH]; cbn; [tauto|]. destruct (String.eqb_spec k k') as [->|].
  - split; [discriminate|]. intros H. elim H. left. reflexivity.
  - rewrite IH. split; [intros H [E|E]; congruence|tauto].
Qed.

Lemma keys_index_insert k v m :
  map fst (index_insert k v m) = if is_some (assoc k m) then map fst m else map fst m ++ [k].
Proof.
  induction m as [|[k' v'] m IH]; cbn; [reflexivity|].
  destruct (String.eqb_spec k k') as [->|]; cbn; [reflexivity|]. rewrite IH.
  destruct (is_some (assoc k m)); reflexivity.
Qed.

Lemma first_occ_in l k : In k (first_occurrences l) <-> In k l.
Proof.
  induction l as [|x l IH]; cbn; [tauto|]. rewrite filter_In, IH. split.
  - intros [H|[H _]]; auto.
  - intros [H|H]; [auto|]. destruct (String.eqb_spec k x) as [->|]; [auto|]. right. auto.
Qed.

Lemma filter_filter {A} (f g : A -> bool) l : filter f (filter g l) = filter (fun x => f x && g x) l.
Proof.
  induction l as [|x l IH]; cbn; [reflexivity|]. destruct (g x); cbn; destruct (f x); cbn; rewrite IH; reflexivity.
Qed.

Lemma first_occ_nodup l : NoDup (first_occurrences l).
Proof.
  induction l as [|x l IH]; cbn; constructor.
  - rewrite filter_In. rewrite String.eqb_refl. intros [_ H]. discriminate.
  - apply NoDup_filter, IH.
Qed.

Lemma first_occ_snoc l k : first_occurrences (l ++ [k]) =
  if existsb (String.eqb k) l then first_occurrences l else first_occurrences l ++ [k].
Proof.
  induction l as [|x l IH]; cbn [app first_occurrences existsb]; [reflexivity|]. rewrite IH.
  destruct (String.eqb_spec k x) as [->|N]; cbn [orb].
  - destruct (existsb (String.eqb x) l); [reflexivity|]. rewrite filter_app. cbn. rewrite String.eqb_refl, app_nil_r.
    reflexivity.
  - destruct (existsb (String.eqb k) l); [reflexivity|]. rewrite filter_app. cbn.
    destruct (String.eqb_spec k x); [contradiction|]. reflexivity.
Qed.

Lemma existsb_in l k : existsb (String.eqb k) l = true <-> In k l.
Proof.
  rewrite existsb_exists. split.
  - intros (x & H & E). apply String.eqb_eq in E. congruence.
  - intros H. exists k. rewrite String.eqb_refl. auto.
Qed.

Lemma keys_step_insert ks k v m : map fst m = first_occurrences ks ->
  map fst (index_insert k v m) = first_occurrences (ks ++ [k]).
Proof.
  intros H. rewrite keys_index_insert, first_occ_snoc, <- H.
  destruct (assoc k m) as [b|] eqn:E; cbn.
  - assert (In k ks) as HI. { apply first_occ_in. rewrite <- H. apply assoc_in in E. apply in_map_iff. exists (k, b). auto. }
    apply existsb_in in HI. rewrite HI. reflexivity.
  - apply assoc_none_in in E. rewrite H in E. rewrite first_occ_in in E.
    destruct (existsb (String.eqb k) ks) eqn:X; [apply existsb_in in X; contradiction|reflexivity].
Qed.

Lemma keys_extend l : forall ks m, map fst m = first_occurrences ks ->
  map fst (attr_extend l m) = first_occurrences (ks ++ map fst l).
Proof.
  induction l as [|[k v] l IH]; intros ks m H; cbn.
  - rewrite app_nil_r. exact H.
  - pose proof (IH (ks ++ [k]) (index_insert k v m) (keys_step_insert ks k v m H)) as X.
    rewrite <- app_assoc in X. exact X.
Qed.

Lemma push_keys ks k v m : map fst m = first_occurrences ks ->
  map fst (fst (attr_push k v m)) = first_occurrences (ks ++ [k]).
Proof.
  intros H. rewrite <- (keys_step_insert ks k v m H), keys_index_insert. unfold attr_push.
  destruct (assoc k m); cbn; [reflexivity|]. rewrite map_app. reflexivity.
Qed.

Lemma run_keys ops : forall ks m, map fst m = first_occurrences ks ->
  map fst (fold_left attr_step ops m) = first_occurrences (ks ++ flat_map op_keys ops).
Proof.
  induction ops as [|op ops IH]; intros ks m H; cbn.
  - rewrite app_nil_r. exact H.
  - rewrite app_assoc. apply IH. destruct op as [k v|k v|l]; cbn [op_keys attr_step].
    + apply push_keys, H.
    + apply keys_step_insert, H.
    + apply keys_extend, H.
Qed.

Lemma extend_value k l : forall m, assoc k (attr_extend l m) =
  fold_left (fun cur kv => if String.eqb k (fst kv) then Some (snd kv) else cur) l (assoc k m).
Proof.
  induction l as [|[k' v] l IH]; intros m; cbn; [reflexivity|]. unfold attr_extend in IH.
  rewrite IH, assoc_index_insert. reflexivity.
Qed.

Lemma run_value k ops : forall m, assoc k (fold_left attr_step ops m) = fold_left (key_step k) ops (assoc k m).
Proof.
  induction ops as [|op ops IH]; intros m; cbn; [reflexivity|]. rewrite IH. f_equal.
  destruct op as [k' v|k' v|l]; cbn.
  - unfold attr_push. destruct (assoc k' m) eqn:E; cbn.
    + destruct (String.eqb_spec k k') as [->|]; [rewrite E|]; reflexivity.
    + rewrite (@assoc_app bytes). cbn. destruct (String.eqb_spec k k') as [->|]; [rewrite E; reflexivity|].
      destruct (assoc k m); reflexivity.
  - apply assoc_index_insert.
  - apply extend_value.
Qed.

(** ** Namespaces *)

Lemma bytes_le_refl a : bytes_le a a = true.
Proof.
  induction a as [|c a IH]; cbn [bytes_le]; [reflexivity|].
  destruct (Nat.ltb_spec (nat_of_ascii c) (nat_of_ascii c)); [lia|exact IH].
Qed.

Lemma nat_ascii_inj a b : nat_of_ascii a = nat_of_ascii b -> a = b.
Proof. intros H. rewrite <- (ascii_nat_embedding a), <- (ascii_nat_embedding b), H. reflexivity. Qed.

Lemma bytes_le_total a : forall b, bytes_le a b = true \/ bytes_le b a = true.
Proof.
  induction a as [|c a IH]; intros [|d b]; cbn [bytes_le]; auto.
  destruct (Nat.ltb_spec (nat_of_ascii c) (nat_of_ascii d)); auto.
  destruct (Nat.ltb_spec (nat_of_ascii d) (nat_of_ascii c)); auto.
Qed.

Lemma bytes_le_antisym a : forall b, bytes_le a b = true -> bytes_le b a = true -> a = b.
Proof.
  induction a as [|c a IH]; intros [|d b]; cbn [bytes_le]; try reflexivity; try discriminate.
  destruct (Nat.ltb_spec (nat_of_ascii c) (nat_of_ascii d)), (Nat.ltb_spec (nat_of_ascii d) (nat_of_ascii c));
    try discriminate; try lia. intros H1 H2. f_equal; [apply nat_ascii_inj; lia|apply IH; assumption].
Qed.

Lemma bytes_le_trans a : forall b c, bytes_le a b = true -> bytes_le b c = true -> bytes_le a c = true.
Proof.
  induction a as [|x a IH]; intros [|y b] [|z c]; cbn [bytes_le]; try reflexivity; try discriminate.
  destruct (Nat.ltb_spec (nat_of_ascii x) (nat_of_ascii y)), (Nat.ltb_spec (nat_of_ascii y) (nat_of_ascii x)),
    (Nat.ltb_spec (nat_of_ascii y) (nat_of_ascii z)), (Nat.ltb_spec (nat_of_ascii z) (nat_of_ascii y)),
    (Nat.ltb_spec (nat_of_ascii x) (nat_of_ascii z)), (Nat.ltb_spec (nat_of_ascii z) (nat_of_ascii x));
    try reflexivity; try discriminate; try lia. apply IH.
Qed.

Definition ele (a b : attr) : Prop := bytes_le (fst a) (fst b) = true.

Lemma sort_insert_perm e l : Permutation (sort_insert e l) (e :: l).
Proof.
  induction l as [|f l IH]; cbn; [reflexivity|]. destruct (bytes_le (fst e) (fst f)); [reflexivity|].
  rewrite IH. apply perm_swap.
Qed.
Lemma sort_perm l : Permutation (sort_entries l) l.
Proof. induction l as [|e l IH]; cbn; [reflexivity|]. rewrite sort_insert_perm, IH. reflexivity. Qed.

Lemma sort_insert_sorted e l : StronglySorted ele l -> StronglySorted ele (sort_insert e l).
Proof.
  induction 1 as [|f l HS IH HF]; cbn.
  - repeat constructor.
  - destruct (bytes_le (fst e) (fst f)) eqn:E.
    + constructor; [constructor; assumption|]. constructor; [exact E|].
      eapply Forall_impl; [|exact HF]. intros g Hg. apply (bytes_le_trans _ (fst f)); assumption.
    + constructor; [exact IH|]. rewrite Forall_forall in *. intros g Hg.
      apply (Permutation_in _ (sort_insert_perm e l)) in Hg as [<-|Hg]; [|apply HF, Hg].
      destruct (bytes_le_total (fst e) (fst f)); [congruence|assumption].
Qed.
Lemma sort_sorted l : StronglySorted ele (sort_entries l).
Proof. induction l as [|e l IH]; cbn; [constructor|]. apply sort_insert_sorted, IH. Qed.

Lemma nodup_key (l : list attr) x y : NoDup (map fst l) -> In x l -> In y l -> fst x = fst y -> x = y.
Proof.
  induction l as [|z l IH]; cbn; intros HN HX HY HE; [contradiction|]. inversion_clear HN.
  destruct HX as [<-|HX], HY as [<-|HY]; auto.
  - elim H. rewrite HE. apply in_map, HY.
  - elim H. rewrite <- HE. apply in_map, HX.
Qed.

Lemma sorted_perm_eq (l1 : list attr) : forall l2, StronglySorted ele l1 -> StronglySorted ele l2 ->
  Permutation l1 l2 -> NoDup (map fst l1) -> l1 = l2.
Proof.
  induction l1 as [|x l1 IH]; intros l2 S1 S2 HP HN.
  - apply Permutation_nil in HP. congruence.
  - destruct l2 as [|y l2]; [apply Permutation_sym, Permutation_nil in HP; discriminate|].
    assert (E : x = y).
    { assert (X : In x (y :: l2)) by (apply (Permutation_in _ HP); left; reflexivity).
      assert (Y : In y (x :: l1)) by (apply (Permutation_in _ (Permutation_sym HP)); left; reflexivity).
      apply (nodup_key (x :: l1)); [exact HN|left; reflexivity|exact Y|].
      inversion_clear S1. inversion_clear S2. rewrite Forall_forall in *.
      apply bytes_le_antisym.
      - destruct Y as [<-|Y]; [apply bytes_le_refl|apply H0, Y].
      - destruct X as [<-|X]; [apply bytes_le_refl|apply H2, X]. }
    subst y. f_equal. apply IH.
    + inversion S1; assumption.
    + inversion S2; assumption.
    + apply Permutation_cons_inv in HP. exact HP.
    + inversion HN; assumption.
Qed.

Lemma hash_perm l1 l2 : is_map l1 -> Permutation l1 l2 -> namespaces_hash l1 = namespaces_hash l2.
Proof.
  intros HN HP. unfold namespaces_hash. f_equal. apply sorted_perm_eq.
  - apply sort_sorted.
  - apply sort_sorted.
  - rewrite (sort_perm l1), (sort_perm l2). exact HP.
  - apply (Permutation_NoDup (l := map fst l1)); [|exact HN].
    apply Permutation_map, Permutation_sym, sort_perm.
Qed.

Lemma assoc_map_in (l : list attr) k v : is_map l -> (assoc k l = Some v <-> In (k, v) l).
Proof.
  intros HN. split; [apply assoc_in|]. intros HI. destruct (assoc k l) as [w|] eqn:E.
  - apply assoc_in in E. f_equal. pose proof (nodup_key l (k, w) (k, v) HN E HI eq_refl) as X. congruence.
  - apply assoc_none_in in E. elim E. apply (in_map fst) in HI. exact HI.
Qed.

Lemma same_bindings_perm l1 l2 : is_map l1 -> is_map l2 -> same_bindings l1 l2 -> Permutation l1 l2.
Proof.
  intros H1 H2 HS. apply NoDup_Permutation.
  - apply (NoDup_map_inv fst). exact H1.
  - apply (NoDup_map_inv fst). exact H2.
  - intros [k v]. rewrite <- (assoc_map_in l1 k v H1), <- (assoc_map_in l2 k v H2), (HS k). reflexivity.
Qed.

Lemma from_is_map l : is_map (namespaces_from l).
Proof.
  unfold is_map.
  assert (H : map fst (namespaces_from l) = first_occurrences (map fst l)) by exact (keys_extend l [] [] eq_refl).
  rewrite H. apply first_occ_nodup.
Qed.

Lemma hash_inj l1 l2 : is_map l1 -> is_map l2 -> namespaces_hash l1 = namespaces_hash l2 -> Permutation l1 l2.
Proof.
  intros _ _ H. rewrite <- (sort_perm l1), <- (sort_perm l2). unfold namespaces_hash in H.
  enough (E : sort_entries l1 = sort_entries l2) by (rewrite E; reflexivity).
  revert H. generalize (sort_entries l1) as a, (sort_entries l2) as b. induction a as [|[k v] a IH]; intros [|[k' v'] b] H; cbn in H; try discriminate; [reflexivity|].
  injection H as -> -> H. f_equal. apply IH, H.
Qed.
