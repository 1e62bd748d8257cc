(* Proofs about the list of render steps. *)
From Coq Require Import List Bool Arith Lia.
From Verif Require Import Base StepModel StepSpec.
Import ListNotations.

Lemma rid_eqb_eq a b : rid_eqb a b = true <-> a = b.
Proof.
  destruct a, b; cbn; split; intro H; try discriminate; try reflexivity.
  - apply Nat.eqb_eq in H. now subst.
  - injection H as ->. apply Nat.eqb_refl.
Qed.

(* The program's comparison, in both directions. *)
Definition either (x s : config) : bool := excl x s || excl s x.

Lemma kind_excl_eq a b : kind_excl a b = true <-> a = KTypes /\ b = KTypes.
Proof. destruct a, b; cbn; intuition discriminate. Qed.

Lemma either_spec x s :
  either x s = true <-> same_job x s /\ ~ (x = Named ContentHelpers /\ s = Named ContentHelpers).
Proof.
  unfold either, same_job.
  rewrite orb_true_iff.
  destruct x as [a|r k n], s as [b|r' k' n']; cbn [excl kind_of step_of type_id].
  - destruct a as [|[]| | | | | | | | | |], b as [|[]| | | | | | | | | |]; cbn;
      split; intro H;
      try (split; [first [left; reflexivity|right; split; reflexivity]|intros [E1 E2]; discriminate]);
      try (left; reflexivity);
      try (destruct H as [H|H]; discriminate);
      try (destruct H as [[H|[H1 H2]] N]; discriminate);
      try (exfalso; apply (proj2 H); split; reflexivity).
  - assert (N : forall A, A /\ ~ (Named a = Named ContentHelpers /\ Own r' k' n' = Named ContentHelpers) <-> A).
    { intro A. split; [intros [H _]; exact H|intro H; split; [exact H|intros [_ E]; discriminate]]. }
    rewrite N, orb_false_l.
    assert (E : same_struct a r' = true <-> builtin_step a = r').
    { destruct a as [|[]| | | | | | | | | |]; cbn; rewrite rid_eqb_eq; split; congruence. }
    destruct (kind_excl (builtin_kind a) k') eqn:K.
    + apply kind_excl_eq in K. intuition.
    + assert (K' : ~ (builtin_kind a = KTypes /\ k' = KTypes)) by (rewrite <- kind_excl_eq, K; discriminate).
      assert (K2 : kind_excl k' (builtin_kind a) = false).
      { destruct (kind_excl k' (builtin_kind a)) eqn:Z; [|reflexivity].
        apply kind_excl_eq in Z. exfalso. tauto. }
      rewrite K2, E. intuition discriminate.
  - assert (N : forall A, A /\ ~ (Own r k n = Named ContentHelpers /\ Named b = Named ContentHelpers) <-> A).
    { intro A. split; [intros [H _]; exact H|intro H; split; [exact H|intros [E _]; discriminate]]. }
    rewrite N, orb_false_l.
    assert (E : same_struct b r = true <-> builtin_step b = r).
    { destruct b as [|[]| | | | | | | | | |]; cbn; rewrite rid_eqb_eq; split; congruence. }
    destruct (kind_excl (builtin_kind b) k) eqn:K.
    + apply kind_excl_eq in K. intuition.
    + assert (K' : ~ (builtin_kind b = KTypes /\ k = KTypes)) by (rewrite <- kind_excl_eq, K; discriminate).
      assert (K2 : kind_excl k (builtin_kind b) = false).
      { destruct (kind_excl k (builtin_kind b)) eqn:Z; [|reflexivity].
        apply kind_excl_eq in Z. exfalso. tauto. }
      rewrite K2, E. intuition (try discriminate; auto).
  - assert (N : forall A, A /\ ~ (Own r k n = Named ContentHelpers /\ Own r' k' n' = Named ContentHelpers) <-> A).
    { intro A. split; [intros [H _]; exact H|intro H; split; [exact H|intros [E _]; discriminate]]. }
    rewrite N, !orb_true_iff, !rid_eqb_eq, !kind_excl_eq. intuition auto.
Qed.

Lemma same_job_sym a b : same_job a b -> same_job b a.
Proof. unfold same_job. intuition. Qed.

(* What retain does. *)
Lemma retain_some step l : forall index p,
  retain step l index (Some p) = (filter (fun x => negb (either x step)) l, Some p).
Proof.
  induction l as [|x l IH]; intros index p; [reflexivity|].
  cbn [retain filter]. fold (either x step).
  destruct (either x step) eqn:E; rewrite IH; reflexivity.
Qed.

Lemma retain_none step l : forall index,
  (forallb (fun x => negb (either x step)) l = true /\ retain step l index None = (l, None)) \/
  exists l1 x l2, l = l1 ++ x :: l2
    /\ forallb (fun x => negb (either x step)) l1 = true /\ either x step = true
    /\ retain step l index None
       = (l1 ++ x :: filter (fun x => negb (either x step)) l2, Some (index + length l1)).
Proof.
  induction l as [|x l IH]; intro index; [left; split; reflexivity|].
  cbn [retain]. fold (either x step).
  destruct (either x step) eqn:E.
  - right. exists [], x, l. rewrite retain_some. cbn. rewrite Nat.add_0_r. auto.
  - destruct (IH (S index)) as [[F R]|(l1 & y & l2 & -> & F & Y & R)].
    + left. cbn. rewrite E, F, R. auto.
    + right. exists (x :: l1), y, l2. rewrite R. cbn. rewrite E, F.
      repeat split; auto. f_equal. f_equal. lia.
Qed.

Lemma set_nth_app l1 x l2 s : set_nth (l1 ++ x :: l2) (length l1) s = Ok (l1 ++ s :: l2).
Proof. induction l1 as [|y l1 IH]; cbn; [reflexivity|]. now rewrite IH. Qed.

Lemma with_step_ok l s :
  (forallb (fun x => negb (either x s)) l = true /\ with_render_step l s = Ok (l ++ [s])) \/
  exists l1 x l2, l = l1 ++ x :: l2
    /\ forallb (fun x => negb (either x s)) l1 = true /\ either x s = true
    /\ with_render_step l s = Ok (l1 ++ s :: filter (fun x => negb (either x s)) l2).
Proof.
  unfold with_render_step.
  destruct (retain_none s l 0) as [[F R]|(l1 & x & l2 & -> & F & X & R)]; rewrite R.
  - left. auto.
  - right. exists l1, x, l2. cbn [Nat.add]. rewrite set_nth_app. auto.
Qed.

Lemma with_step_total l s : exists l', with_render_step l s = Ok l'.
Proof. destruct (with_step_ok l s) as [[_ E]|(l1 & x & l2 & _ & _ & _ & E)]; rewrite E; eauto. Qed.

Lemma with_steps_total n : forall l, exists l', with_render_steps l n = Ok l'.
Proof.
  induction n as [|s n IH]; intro l; cbn; [eauto|].
  destruct (with_step_total l s) as [l' E]. rewrite E. apply IH.
Qed.

Lemma calls_total cs : forall l, exists l', calls l cs = Ok l'.
Proof.
  induction cs as [|c cs IH]; intro l; cbn; [eauto|].
  destruct (with_steps_total (call_steps c) l) as [l' E]. rewrite E. apply IH.
Qed.

(* Invariants of one addition are invariants of all calls. *)
Lemma with_steps_inv (P : list config -> Prop) (A : config -> Prop) n :
  (forall l s l', A s -> P l -> with_render_step l s = Ok l' -> P l') ->
  Forall A n -> forall l l', P l -> with_render_steps l n = Ok l' -> P l'.
Proof.
  intros I F. induction F as [|s n AS _ IH]; intros l l' PL; cbn.
  - intros [= <-]. exact PL.
  - destruct (with_render_step l s) as [l0| |] eqn:E; try discriminate.
    apply IH. exact (I _ _ _ AS PL E).
Qed.

Lemma calls_inv (P : list config -> Prop) (A : call -> Prop) cs :
  (forall c l l', A c -> P l -> with_render_steps l (call_steps c) = Ok l' -> P l') ->
  Forall A cs -> forall l l', P l -> calls l cs = Ok l' -> P l'.
Proof.
  intros I F. induction F as [|s n AS _ IH]; intros l l' PL; cbn.
  - intros [= <-]. exact PL.
  - destruct (with_render_steps l (call_steps s)) as [l0| |] eqn:E; try discriminate.
    apply IH. exact (I _ _ _ AS PL E).
Qed.

(* A chain of calls is one list of additions. *)
Lemma with_steps_app n1 n2 : forall l,
  with_render_steps l (n1 ++ n2)
  = match with_render_steps l n1 with Ok l => with_render_steps l n2 | o => o end.
Proof.
  induction n1 as [|s n1 IH]; intro l; cbn; [reflexivity|].
  destruct (with_render_step l s); try reflexivity. apply IH.
Qed.

Lemma calls_flat cs : forall l, calls l cs = with_render_steps l (flat_map call_steps cs).
Proof.
  induction cs as [|c cs IH]; intro l; cbn; [reflexivity|].
  rewrite with_steps_app. destruct (with_render_steps l (call_steps c)); try reflexivity. apply IH.
Qed.

(* The entry that is added is in the list. *)
Lemma with_step_in l s l' : with_render_step l s = Ok l' -> In s l'.
Proof.
  destruct (with_step_ok l s) as [[_ E]|(l1 & x & l2 & _ & _ & _ & E)]; rewrite E;
    intros [= <-]; apply in_or_app; cbn; auto.
Qed.

Lemma with_step_only l s l' x : with_render_step l s = Ok l' -> In x l' -> x = s \/ In x l.
Proof.
  destruct (with_step_ok l s) as [[_ E]|(l1 & y & l2 & -> & _ & _ & E)]; rewrite E;
    intros [= <-] H; apply in_app_or in H; rewrite ?in_app_iff; cbn in *.
  - intuition.
  - destruct H as [H|[H|H]]; auto. apply filter_In in H. intuition.
Qed.

Lemma with_step_keeps l s l' x :
  with_render_step l s = Ok l' -> In x l -> In x l' \/ either x s = true.
Proof.
  destruct (with_step_ok l s) as [[_ E]|(l1 & y & l2 & -> & F & Y & E)]; rewrite E;
    intros [= <-] H.
  - left. apply in_or_app. auto.
  - apply in_app_or in H. destruct H as [H|[<-|H]].
    + left. apply in_or_app. auto.
    + right. exact Y.
    + destruct (either x s) eqn:Z; [auto|]. left. apply in_or_app. right. right.
      apply filter_In. rewrite Z. auto.
Qed.

Lemma keeps_sym l s l' x :
  with_render_step l s = Ok l' -> In x l -> ~ same_job x s -> In x l'.
Proof.
  intros E H N. destruct (with_step_keeps _ _ _ _ E H) as [K|K]; [exact K|].
  apply either_spec in K. tauto.
Qed.

Lemma last_wins n : forall l l' s,
  with_render_steps l n = Ok l' -> In s l ->
  (forall x, In x n -> ~ same_job s x) -> In s l'.
Proof.
  induction n as [|x n IH]; intros l l' s; cbn.
  - intros [= <-]. auto.
  - destruct (with_render_step l x) as [l0| |] eqn:E; try discriminate.
    intros E2 H N. apply (IH l0 l' s E2).
    + apply (keeps_sym _ _ _ _ E H). apply N. auto.
    + intros y Y. apply N. auto.
Qed.

(* At most one entry per job. *)
Definition pair_ok (l : list config) : Prop :=
  forall i j a b, nth_error l i = Some a -> nth_error l j = Some b ->
    same_job a b -> i = j \/ (a = Named ContentHelpers /\ b = Named ContentHelpers).

Inductive pairs : list config -> Prop :=
| pairs_nil : pairs []
| pairs_cons x l : (forall y, In y l -> either x y = false) -> pairs l -> pairs (x :: l).

Lemma either_sym x y : either x y = either y x.
Proof. unfold either. apply orb_comm. Qed.

Lemma pairs_app l1 l2 :
  pairs (l1 ++ l2) <-> pairs l1 /\ pairs l2 /\ forall x y, In x l1 -> In y l2 -> either x y = false.
Proof.
  induction l1 as [|x l1 IH]; cbn.
  - split; [intro H; repeat split; auto; [constructor|tauto]|tauto].
  - split.
    + intro H. inversion H as [|? ? N P]; subst. apply IH in P. destruct P as (P1 & P2 & P3).
      repeat split; auto.
      * constructor; auto. intros y Y. apply N. apply in_or_app. auto.
      * intros a b [<-|A] B; [apply N; apply in_or_app; auto|auto].
    + intros (H & P2 & P3). inversion H as [|? ? N P]; subst. constructor.
      * intros y Y. apply in_app_or in Y. destruct Y; auto.
      * apply IH. auto.
Qed.

Lemma pairs_filter f l : pairs l -> pairs (filter f l).
Proof.
  induction 1 as [|x l N P IH]; cbn; [constructor|].
  destruct (f x); [|exact IH]. constructor; [|exact IH].
  intros y Y. apply filter_In in Y. apply N, Y.
Qed.

Lemma pairs_step l s l' : pairs l -> with_render_step l s = Ok l' -> pairs l'.
Proof.
  intros P. destruct (with_step_ok l s) as [[F E]|(l1 & x & l2 & -> & F & X & E)]; rewrite E; intros [= <-].
  - apply pairs_app. repeat split; [exact P|repeat constructor; intros y []|].
    intros a b A [<-|[]]. rewrite forallb_forall in F. apply F in A. now apply negb_true_iff in A.
  - apply pairs_app in P. destruct P as (P1 & P2 & P3). apply pairs_app.
    inversion P2 as [|? ? N P4]; subst.
    rewrite forallb_forall in F.
    repeat split; [exact P1| |].
    + constructor; [|now apply pairs_filter].
      intros y Y. apply filter_In in Y. destruct Y as [_ Y].
      rewrite either_sym. now apply negb_true_iff in Y.
    + intros a b A [<-|B].
      * apply F in A. now apply negb_true_iff in A.
      * apply filter_In in B. apply P3; [exact A|right; apply B].
Qed.

Lemma pairs_nth l : pairs l <-> pair_ok l.
Proof.
  split.
  - induction 1 as [|x l N P IH]; intros i j a b A B J.
    + destruct i; discriminate.
    + destruct i as [|i], j as [|j]; cbn in A, B.
      * auto.
      * injection A as ->. apply nth_error_In in B. apply N in B.
        right. destruct (either a b) eqn:Z; [discriminate|].
        assert (D : {a = Named ContentHelpers /\ b = Named ContentHelpers} + {~ (a = Named ContentHelpers /\ b = Named ContentHelpers)}).
        { destruct a as [[]|], b as [[]|]; try (right; intros [E1 E2]; discriminate). left; auto. }
        destruct D as [D|D]; [exact D|].
        assert (either a b = true) by (apply either_spec; auto). congruence.
      * injection B as ->. apply nth_error_In in A. apply N in A.
        right. rewrite either_sym in A.
        assert (D : {a = Named ContentHelpers /\ b = Named ContentHelpers} + {~ (a = Named ContentHelpers /\ b = Named ContentHelpers)}).
        { destruct a as [[]|], b as [[]|]; try (right; intros [E1 E2]; discriminate). left; auto. }
        destruct D as [D|D]; [exact D|].
        assert (either a b = true) by (apply either_spec; auto). congruence.
      * destruct (IH i j a b A B J) as [->|K]; auto.
  - induction l as [|x l IH]; intro H; constructor.
    + intros y Y. destruct (either x y) eqn:Z; [|reflexivity]. exfalso.
      apply either_spec in Z. destruct Z as [J NC].
      apply In_nth_error in Y. destruct Y as [n Y].
      destruct (H 0 (S n) x y eq_refl Y J) as [D|D]; [discriminate|tauto].
    + apply IH. intros i j a b A B J.
      destruct (H (S i) (S j) a b A B J) as [D|D]; [left; congruence|auto].
Qed.

Lemma pairs_calls cs l l' : pairs l -> calls l cs = Ok l' -> pairs l'.
Proof.
  intros P E. rewrite calls_flat in E.
  revert P E. apply (with_steps_inv pairs (fun _ => True)).
  - intros a s b _ PA EA. exact (pairs_step _ _ _ PA EA).
  - apply Forall_forall. auto.
Qed.

(* The exact effect of one addition. *)
Lemma filter_kept s l :
  (s = Named ContentHelpers -> ~ In (Named ContentHelpers) l) ->
  kept s l (filter (fun x => negb (either x s)) l).
Proof.
  induction l as [|x l IH]; intro N; cbn; [constructor|].
  assert (N' : s = Named ContentHelpers -> ~ In (Named ContentHelpers) l).
  { intros E H. apply (N E). now right. }
  destruct (either x s) eqn:Z; cbn.
  - apply either_spec in Z. apply kept_skip; [tauto|auto].
  - apply kept_cons; [|auto]. intro J.
    assert (either x s = true); [|congruence].
    apply either_spec. split; [exact J|]. intros [-> ->]. apply (N eq_refl). now left.
Qed.

Lemma forallb_not_same s l :
  (s = Named ContentHelpers -> ~ In (Named ContentHelpers) l) ->
  forallb (fun x => negb (either x s)) l = true -> forall x, In x l -> ~ same_job x s.
Proof.
  intros N F x X J. rewrite forallb_forall in F. apply F in X as Z.
  apply negb_true_iff in Z. assert (either x s = true); [|congruence].
  apply either_spec. split; [exact J|]. intros [-> ->]. now apply (N eq_refl).
Qed.

Lemma added_app s l1 : (forall x, In x l1 -> ~ same_job x s) -> forall l2 l2',
  added s l2 l2' -> added s (l1 ++ l2) (l1 ++ l2').
Proof.
  induction l1 as [|x l1 IH]; intros N l2 l2' A; cbn; [exact A|].
  apply added_later; [apply N; now left|]. apply IH; [|exact A]. intros y Y. apply N. now right.
Qed.

Lemma with_step_added l s l' :
  (s = Named ContentHelpers -> ~ In (Named ContentHelpers) l) ->
  with_render_step l s = Ok l' -> added s l l'.
Proof.
  intro N. destruct (with_step_ok l s) as [[F E]|(l1 & x & l2 & -> & F & X & E)]; rewrite E; intros [= <-].
  - rewrite <- (app_nil_r l) at 1. apply added_app; [|constructor].
    now apply forallb_not_same.
  - assert (N1 : s = Named ContentHelpers -> ~ In (Named ContentHelpers) l1).
    { intros K H. apply (N K). apply in_or_app. auto. }
    apply added_app; [now apply forallb_not_same|].
    apply added_here; [apply either_spec in X; tauto|].
    apply filter_kept. intros K H. apply (N K). apply in_or_app. right. now right.
Qed.

(* Dependencies. *)
Lemma kind_types_step c : honest c -> kind_of c = KTypes ->
  forall r, In r [RNamespaceConst; RPrefixConst; RCollect] -> step_of c <> r.
Proof.
  destruct c as [b|r0 k s]; cbn.
  - destruct b as [|[]| | | | | | | | | |]; cbn; intros _ K; try discriminate; intros r [<-|[<-|[<-|[]]]]; discriminate.
  - destruct r0; intros H ->; try discriminate H; intros r [<-|[<-|[<-|[]]]]; discriminate.
Qed.

Lemma needs_in c r : In r (needs c) -> In r [RNamespaceConst; RPrefixConst; RCollect].
Proof. destruct c as [[|[]| | | | | | |[]| | |]|]; cbn; tauto. Qed.

Definition provided (l : list config) (r : rid) : Prop := exists c, In c l /\ step_of c = r.

Lemma provided_step l s l' r :
  Forall honest l -> honest s -> with_render_step l s = Ok l' ->
  In r [RNamespaceConst; RPrefixConst; RCollect] -> provided l r -> provided l' r.
Proof.
  intros HL HS E R (c & C & <-).
  destruct (with_step_keeps _ _ _ _ E C) as [K|K]; [exists c; auto|].
  apply either_spec in K. destruct K as [[K|[K1 K2]] _].
  - exists s. split; [apply (with_step_in _ _ _ E)|auto].
  - exfalso. rewrite Forall_forall in HL.
    exact (kind_types_step c (HL c C) K1 _ R eq_refl).
Qed.

Lemma honest_step l s l' : Forall honest l -> honest s -> with_render_step l s = Ok l' -> Forall honest l'.
Proof.
  intros HL HS E. apply Forall_forall. intros x X.
  destruct (with_step_only _ _ _ _ E X) as [->|H]; [exact HS|].
  rewrite Forall_forall in HL. auto.
Qed.

(* adding a list in which every need is met by an earlier or a later entry *)
Lemma steps_needs n : forall l l',
  Forall honest l -> Forall honest n -> with_render_steps l n = Ok l' ->
  Forall honest l'
  /\ (forall r, In r [RNamespaceConst; RPrefixConst; RCollect] ->
        provided l r \/ provided n r -> provided l' r)
  /\ (forall x, In x l' -> In x l \/ In x n).
Proof.
  induction n as [|s n IH]; intros l l' HL HN; cbn.
  - intros [= <-]. split; [exact HL|]. split; [|auto].
    intros r _ [H|(c & [] & _)]. exact H.
  - inversion HN as [|? ? HS HN']; subst.
    destruct (with_render_step l s) as [l0| |] eqn:E; try discriminate. intro E2.
    destruct (IH l0 l' (honest_step _ _ _ HL HS E) HN' E2) as (H1 & H2 & H3).
    split; [exact H1|]. split.
    + intros r R [H|(c & [<-|C] & Z)]; apply H2; auto.
      * left. exact (provided_step _ _ _ _ HL HS E R H).
      * left. exists s. split; [exact (with_step_in _ _ _ E)|exact Z].
      * right. exists c. auto.
    + intros x X. destruct (H3 x X) as [H|H]; [|auto].
      destruct (with_step_only _ _ _ _ E H) as [->|K]; auto.
Qed.

Lemma complete_steps l n l' :
  Forall honest l -> Forall honest n -> complete l ->
  (forall c r, In c n -> In r (needs c) -> provided n r) ->
  with_render_steps l n = Ok l' -> complete l'.
Proof.
  intros HL HN CL CN E. destruct (steps_needs n l l' HL HN E) as (_ & H2 & H3).
  intros c r C R. destruct (H3 c C) as [H|H].
  - apply H2; [exact (needs_in _ _ R)|]. left. destruct (CL c r H R) as (c' & A & B). exists c'. auto.
  - apply H2; [exact (needs_in _ _ R)|]. right. exact (CN c r H R).
Qed.

Definition closed_b (n : list config) : bool :=
  forallb (fun s => forallb (fun r => existsb (fun c => rid_eqb (step_of c) r) n) (needs s)) n.

Lemma closed_b_ok n : closed_b n = true ->
  forall s r, In s n -> In r (needs s) -> provided n r.
Proof.
  unfold closed_b. intros H s r S0 R. rewrite forallb_forall in H.
  apply H in S0. rewrite forallb_forall in S0. apply S0 in R.
  apply existsb_exists in R. destruct R as (c & C & E).
  exists c. split; [exact C|now apply rid_eqb_eq].
Qed.

Lemma call_closed c : Forall (fun s => needs s = []) (direct c) ->
  forall s r, In s (call_steps c) -> In r (needs s) -> provided (call_steps c) r.
Proof.
  intros D. destruct c as [s0|l0|n d|b|n d b| |v|]; cbn in D.
  - intros s r S0 R. exfalso. inversion D as [|? ? E _]; subst.
    destruct S0 as [<-|[]]. rewrite E in R. destruct R.
  - intros s r S0 R. exfalso. rewrite Forall_forall in D. rewrite (D s S0) in R. destruct R.
  - apply closed_b_ok. destruct n; reflexivity.
  - apply closed_b_ok. reflexivity.
  - apply closed_b_ok. destruct n; reflexivity.
  - apply closed_b_ok. reflexivity.
  - apply closed_b_ok. reflexivity.
  - apply closed_b_ok. reflexivity.
Qed.

Lemma call_honest c : Forall honest (direct c) -> Forall honest (call_steps c).
Proof.
  destruct c as [s0|l0|n d|b|n d b| |v|]; cbn; intro H; auto;
    try destruct n; repeat constructor.
Qed.

Lemma complete_calls cs l l' :
  Forall honest l -> complete l ->
  (forall c, In c cs -> Forall (fun s => honest s /\ needs s = []) (direct c)) ->
  calls l cs = Ok l' -> complete l'.
Proof.
  intros HL CL D E.
  enough (H : Forall honest l' /\ complete l') by apply H.
  revert E. generalize (conj HL CL). clear HL CL.
  apply (calls_inv (fun l => Forall honest l /\ complete l)
           (fun c => Forall (fun s => honest s /\ needs s = []) (direct c))).
  - intros c a b AC [HA CA] EA.
    assert (H1 : Forall honest (direct c)) by (eapply Forall_impl; [|exact AC]; cbn; tauto).
    assert (H2 : Forall (fun s => needs s = []) (direct c)) by (eapply Forall_impl; [|exact AC]; cbn; tauto).
    split.
    + exact (proj1 (steps_needs _ _ _ HA (call_honest c H1) EA)).
    + exact (complete_steps _ _ _ HA (call_honest c H1) CA (call_closed c H2) EA).
  - apply Forall_forall. exact D.
Qed.

(* The types are rendered by one step. *)
Lemma kind_by_step f c : honest c -> own_kind f c ->
  kind_of c = match step_of c with
              | RTypes | RSerdeV7 | RSerdeV8 | RSerdeQuickXml => KTypes
              | ROwn n => f n
              | _ => KExtraImpls
              end.
Proof.
  destruct c as [b|r k s]; cbn.
  - destruct b as [|[]| | | | | | | | | |]; reflexivity.
  - destruct r; cbn; auto.
Qed.

Lemma types_step f l s l' :
  Forall honest l -> Forall (own_kind f) l -> honest s -> own_kind f s ->
  (exists c, In c l /\ kind_of c = KTypes) -> with_render_step l s = Ok l' ->
  exists c, In c l' /\ kind_of c = KTypes.
Proof.
  intros HL OL HS OS (c & C & K) E.
  destruct (with_step_keeps _ _ _ _ E C) as [Z|Z]; [exists c; auto|].
  apply either_spec in Z. exists s. split; [exact (with_step_in _ _ _ E)|].
  destruct Z as [[Z|Z] _]; [|apply Z].
  rewrite Forall_forall in HL, OL.
  rewrite (kind_by_step f s HS OS), <- Z, <- (kind_by_step f c (HL c C) (OL c C)). exact K.
Qed.

Lemma call_own f c : Forall (own_kind f) (direct c) -> Forall (own_kind f) (call_steps c).
Proof.
  destruct c as [s0|l0|n d|b|n d b| |v|]; cbn; intro H; auto;
    try destruct n; repeat constructor.
Qed.

Lemma types_calls f cs l l' :
  Forall (fun s => honest s /\ own_kind f s) l ->
  (forall c, In c cs -> Forall (fun s => honest s /\ own_kind f s) (direct c)) ->
  (exists c, In c l /\ kind_of c = KTypes) ->
  calls l cs = Ok l' -> exists c, In c l' /\ kind_of c = KTypes.
Proof.
  intros HL D X E. rewrite calls_flat in E.
  enough (H : Forall (fun s => honest s /\ own_kind f s) l' /\ exists c, In c l' /\ kind_of c = KTypes) by apply H.
  revert E. generalize (conj HL X). clear HL X.
  apply (with_steps_inv
    (fun l => Forall (fun s => honest s /\ own_kind f s) l /\ exists c, In c l /\ kind_of c = KTypes)
    (fun s => honest s /\ own_kind f s)).
  - intros a s b [HS OS] [HA XA] EA. rewrite Forall_forall in HA. split.
    + apply Forall_forall. intros x Z. destruct (with_step_only _ _ _ _ EA Z) as [->|Y]; auto.
    + apply (types_step f a s b); auto; apply Forall_forall; intros x Z; apply HA, Z.
  - apply Forall_forall. intros s S0. apply in_flat_map in S0. destruct S0 as (c & C & S0).
    apply D in C.
    assert (H1 : Forall honest (direct c)) by (eapply Forall_impl; [|exact C]; cbn; tauto).
    assert (H2 : Forall (own_kind f) (direct c)) by (eapply Forall_impl; [|exact C]; cbn; tauto).
    apply call_honest in H1. apply call_own in H2. rewrite Forall_forall in H1, H2. auto.
Qed.
