From Verif Require Import MetaModel MetaSpec MetaProofs OccursSpec OccursProofs OptModel OptProofs UnionModel UnionProofs FlatModel FlatSpec.

(** ** Bounds *)

Lemma allows_plus a b i j : allows a i -> allows b j -> allows (max_plus a b) (i + j).
Proof. destruct a, b; cbn; auto; lia. Qed.
Lemma allows_le a i j : allows a i -> j <= i -> allows a j.
Proof. destruct a; cbn; auto; lia. Qed.
Lemma allows_times a b i j : allows a i -> allows b j -> allows (max_times a b) (i * j).
Proof. destruct a, b; cbn; auto. intros. apply Nat.mul_le_mono; assumption. Qed.
Lemma allows_max_l a b n : allows a n -> allows (max_max a b) n.
Proof. intros H. destruct (max_join a b) as (X & _). apply X, H. Qed.
Lemma allows_max_r a b n : allows b n -> allows (max_max a b) n.
Proof. intros H. destruct (max_join a b) as (_ & X & _). apply X, H. Qed.
Lemma plus_assoc a b c : max_plus a (max_plus b c) = max_plus (max_plus a b) c.
Proof. destruct a, b, c; cbn; try reflexivity. f_equal. lia. Qed.
Lemma plus_comm a b : max_plus a b = max_plus b a.
Proof. destruct a, b; cbn; try reflexivity. f_equal. lia. Qed.
Lemma plus_zero a : max_plus a (Bounded 0) = a.
Proof. destruct a; cbn; [reflexivity|]. f_equal. lia. Qed.
Lemma times_le a b c n : allows (max_times a (Bounded c)) n -> allows b c -> allows (max_times a b) n.
Proof. destruct a, b; cbn; auto. nia. Qed.

(** ** Words *)

Lemma mixes_nil_r {A} (u : list A) : mixes u [] u.
Proof. induction u; constructor; assumption. Qed.
Lemma mixes_nil_l {A} (u : list A) : mixes [] u u.
Proof. induction u; constructor; assumption. Qed.
Lemma mixes_nil_l_inv {A} (u w : list A) : mixes [] u w -> w = u.
Proof. remember [] as n. intros H. revert Heqn. induction H; intros E; try discriminate; [reflexivity|]. rewrite IHmixes by exact E. reflexivity. Qed.
Lemma mixes_comm {A} (u v w : list A) : mixes u v w -> mixes v u w.
Proof. induction 1; constructor; assumption. Qed.
Lemma mixes_app {A} (a b c : list A) : mixes a b c -> forall a' b' c', mixes a' b' c' -> mixes (a ++ a') (b ++ b') (c ++ c').
Proof. induction 1; cbn; intros; [assumption| |]; constructor; auto. Qed.
Lemma mixes_concat {A} (u v : list A) : mixes u v (u ++ v).
Proof. rewrite <- (app_nil_r u) at 1. rewrite <- (app_nil_l v) at 1. apply mixes_app; [apply mixes_nil_r|apply mixes_nil_l]. Qed.
Lemma mixes_assoc {A} (x w y : list A) : mixes x w y -> forall u v, mixes u v x -> exists z, mixes v w z /\ mixes u z y.
Proof.
  induction 1 as [|a x w y H IH|a x w y H IH]; intros u v M.
  - inversion M; subst. exists []. split; constructor.
  - inversion M; subst.
    + destruct (IH _ _ H3) as (z & Z1 & Z2). exists z. split; [exact Z1|constructor; exact Z2].
    + destruct (IH _ _ H3) as (z & Z1 & Z2). exists (a :: z). split; constructor; assumption.
  - destruct (IH _ _ M) as (z & Z1 & Z2). exists (a :: z). split; constructor; assumption.
Qed.
Lemma mixes_assoc' {A} (u z y : list A) : mixes u z y -> forall v w, mixes v w z -> exists x, mixes u v x /\ mixes x w y.
Proof.
  intros H v w M. apply mixes_comm in H. apply mixes_comm in M. destruct (mixes_assoc _ _ _ H _ _ M) as (x & X1 & X2).
  exists x. split; apply mixes_comm; assumption.
Qed.
Lemma mixes_repeat {A} (c : A) : forall u v w, mixes u v w -> forall n m, u = repeat c n -> v = repeat c m -> w = repeat c (n + m).
Proof.
  induction 1 as [|a u v w H IH|a u v w H IH]; intros n m E1 E2.
  - destruct n; [|discriminate]. destruct m; [reflexivity|discriminate].
  - destruct n as [|n]; [discriminate|]. injection E1 as -> E1. cbn. f_equal. apply IH; assumption.
  - destruct m as [|m]; [discriminate|]. injection E2 as -> E2. rewrite Nat.add_succ_r. cbn. f_equal. apply IH; assumption.
Qed.
Lemma mixes_length {A} (u v w : list A) : mixes u v w -> length w = length u + length v.
Proof. induction 1; cbn; lia. Qed.
Lemma mixes_in {A} (u v w : list A) : mixes u v w -> forall a, In a w <-> In a u \/ In a v.
Proof. induction 1 as [|b u v w H IH|b u v w H IH]; intros a; cbn; [tauto| |]; rewrite IH; tauto. Qed.
Lemma mixes_forall {A} (P : A -> Prop) u v w : mixes u v w -> Forall P u -> Forall P v -> Forall P w.
Proof.
  intros M U V. apply Forall_forall. intros a I. apply (mixes_in _ _ _ M) in I. rewrite Forall_forall in *. destruct I; auto.
Qed.

Section Orders.
  Context {A B : Type}.
  Lemma io_snoc (P : A -> list B -> Prop) es e w : in_order P (es ++ [e]) w -> exists u v, w = u ++ v /\ in_order P es u /\ P e v.
  Proof.
    revert w. induction es as [|a es IH]; cbn; intros w H; inversion H as [|? ? v w' Pv R]; subst.
    - inversion R; subst. rewrite app_nil_r. exists [], v. split; [reflexivity|]. split; [constructor|exact Pv].
    - destruct (IH _ R) as (u & v' & -> & I & P'). exists (v ++ u), v'. rewrite app_assoc. split; [reflexivity|].
      split; [constructor; assumption|exact P'].
  Qed.
  Lemma io_app (P : A -> list B -> Prop) es es' u v : in_order P es u -> in_order P es' v -> in_order P (es ++ es') (u ++ v).
  Proof. induction 1; cbn; intros H'; [exact H'|]. rewrite <- app_assoc. constructor; auto. Qed.
  Lemma ao_app_inv (P : A -> list B -> Prop) es es' w : any_order P (es ++ es') w ->
    exists u v, any_order P es u /\ any_order P es' v /\ mixes u v w.
  Proof.
    revert w. induction es as [|a es IH]; cbn; intros w H.
    - exists [], w. split; [constructor|]. split; [exact H|apply mixes_nil_l].
    - inversion H as [|? ? x y ? Px R M]; subst. destruct (IH _ R) as (u & v & U & V & M').
      destruct (mixes_assoc' _ _ _ M _ _ M') as (z & Z1 & Z2). exists z, v. split; [econstructor; eassumption|]. auto.
  Qed.
  Lemma ao_app (P : A -> list B -> Prop) es es' u v w : any_order P es u -> any_order P es' v -> mixes u v w -> any_order P (es ++ es') w.
  Proof.
    intros H. revert v w. induction H as [|a es x y z Px R IH M]; cbn; intros v w H' M'.
    - apply mixes_nil_l_inv in M'. subst. exact H'.
    - destruct (mixes_assoc _ _ _ M' _ _ M) as (t & T1 & T2). econstructor; [exact Px| |exact T2]. eapply IH; eassumption.
  Qed.
  Lemma ao_one (P : A -> list B -> Prop) e w : any_order P [e] w <-> P e w.
  Proof.
    split.
    - intros H. inversion H as [|? ? u v ? Pu R M]; subst. inversion R; subst. apply mixes_comm, mixes_nil_l_inv in M. subst. exact Pu.
    - intros H. econstructor; [exact H|constructor|apply mixes_nil_r].
  Qed.
  Lemma ao_impl (P Q : A -> list B -> Prop) es w : (forall e v, P e v -> Q e v) -> any_order P es w -> any_order Q es w.
  Proof. intros H. induction 1; econstructor; eauto. Qed.
  Lemma ao_map {C} (P : A -> list B -> Prop) (Q : C -> list B -> Prop) (f : A -> C) es w :
    (forall e v, P e v -> Q (f e) v) -> any_order P es w -> any_order Q (map f es) w.
  Proof. intros H. induction 1; cbn; econstructor; eauto. Qed.
  Lemma io_map {C} (P : A -> list B -> Prop) (Q : C -> list B -> Prop) (f : A -> C) es w :
    (forall e v, P e v -> Q (f e) v) -> in_order P es w -> in_order Q (map f es) w.
  Proof. intros H. induction 1; cbn; constructor; eauto. Qed.
  Lemma ao_concat (P Q R : A -> list B -> Prop) es u v : (forall e a b, P e a -> Q e b -> R e (a ++ b)) ->
    any_order P es u -> any_order Q es v -> any_order R es (u ++ v).
  Proof.
    intros H U. revert v. induction U as [|e es a u' u Pa U IH M]; intros v V; inversion V; subst; [constructor|].
    econstructor; [apply H; eassumption|apply IH; eassumption|]. apply mixes_app; assumption.
  Qed.
End Orders.

Lemma times_bounds {A} (L : list A -> Prop) (Q : A -> Prop) mn mx n w a b :
  (forall v, L v -> Forall Q v /\ within mn mx (length v)) -> times L n w -> within a b n ->
  Forall Q w /\ within (mn * a) (max_times mx b) (length w).
Proof.
  intros H T [Wa Wb].
  assert (G : Forall Q w /\ mn * n <= length w /\ allows (max_times mx (Bounded n)) (length w)).
  { clear -H T. induction T as [|n v w Lv T IH]; [split; [constructor|]; cbn; split; [lia|]; destruct mx; cbn; auto; lia|].
    destruct (H _ Lv) as (F & W1 & W2). destruct IH as (F' & I1 & I2). split; [apply Forall_app; auto|]. rewrite app_length.
    split; [nia|]. destruct mx; cbn in *; auto. nia. }
  destruct G as (F & G1 & G2). split; [exact F|]. split; [nia|]. eapply times_le; eassumption.
Qed.
Lemma times_impl {A} (L L' : list A -> Prop) n w : (forall v, L v -> L' v) -> times L n w -> times L' n w.
Proof. intros H. induction 1; constructor; auto. Qed.
Lemma times_few {A} (L : list A -> Prop) n w : times L n w -> n <= 1 -> (n = 0 /\ w = []) \/ (n = 1 /\ L w).
Proof.
  intros T H. inversion T as [|k v u Lv Tu]; subst; [auto|]. destruct k; [|lia]. inversion Tu; subst. rewrite app_nil_r. auto.
Qed.
Lemma times_one {A} (L : list A -> Prop) (w : list A) : Forall (fun a => L [a]) w -> times L (length w) w.
Proof. induction 1; [constructor|]. cbn. apply (times_more L _ [x] l); assumption. Qed.

(** ** The words of plain elements *)

Definition leafL (e : element_meta) (w : list child) : Prop :=
  exists n, within (el_min e) (el_max e) n /\ w = repeat (child_of e) n.
Definition leaf (e : element_meta) : Prop := is_group e = None.
Definition unit_el (e : element_meta) : Prop := el_min e = 1 /\ el_max e = Bounded 1.

Definition scale (a : nat) (b : max_occurs) (e : element_meta) : element_meta :=
  set_occurs (el_min e * a) (max_times (el_max e) b) e.

Lemma child_set mn mx e : child_of (set_occurs mn mx e) = child_of e.
Proof. reflexivity. Qed.
Lemma group_set mn mx e : is_group (set_occurs mn mx e) = is_group e.
Proof. reflexivity. Qed.
Lemma leaf_part ts e w : leaf e -> part ts e w -> leafL e w.
Proof. intros L H. inversion H; subst; unfold leaf in *; [congruence|]. eexists. eauto. Qed.
Lemma part_leaf ts e w : leaf e -> leafL e w -> part ts e w.
Proof. intros L (n & W & ->). apply part_child; assumption. Qed.
Lemma leaf_word e w : leafL e w -> Forall (eq (child_of e)) w /\ within (el_min e) (el_max e) (length w).
Proof.
  intros (n & W & ->). rewrite repeat_length. split; [|exact W]. apply Forall_forall. intros c I. symmetry. eapply repeat_spec; exact I.
Qed.
Lemma unit_word e : unit_el e -> leafL e [child_of e].
Proof. intros [A B]. exists 1. rewrite A, B. split; [split; cbn; lia|reflexivity]. Qed.

Lemma leaf_scale e n w a b : times (leafL e) n w -> within a b n -> leafL (scale a b e) w.
Proof.
  intros T [Wa Wb].
  assert (G : exists k, el_min e * n <= k /\ allows (max_times (el_max e) (Bounded n)) k /\ w = repeat (child_of e) k).
  { clear -T. induction T as [|n v w (k & [K1 K2] & ->) T IH]; [exists 0; cbn; split; [lia|]; split; [destruct (el_max e); cbn; auto; lia|reflexivity]|].
    destruct IH as (j & J1 & J2 & ->). exists (k + j). split; [nia|]. split; [|rewrite repeat_app; reflexivity].
    destruct (el_max e); cbn in *; auto. nia. }
  destruct G as (k & G1 & G2 & ->). exists k. split; [|reflexivity]. split; [cbn; nia|]. eapply times_le; eassumption.
Qed.

Lemma times_any es n w : times (any_order leafL es) n w -> any_order (fun e v => times (leafL e) n v) es w.
Proof.
  induction 1 as [|n v w V T IH].
  - induction es as [|e es IH]; [constructor|]. econstructor; [constructor|exact IH|constructor].
  - eapply ao_concat; [|exact V|exact IH]. intros e a b A' B'. constructor; assumption.
Qed.
Lemma scale_any es n w a b : times (any_order leafL es) n w -> within a b n -> any_order leafL (map (scale a b) es) w.
Proof. intros T W. apply times_any in T. eapply ao_map; [|exact T]. intros e v V. exact (leaf_scale _ _ _ _ _ V W). Qed.

(** ** Bounds of several elements *)

Definition sums (es : list element_meta) (o : nat * max_occurs) : nat * max_occurs :=
  fold_left (fun o e => (fst o + el_min e, max_plus (snd o) (el_max e))) es o.
Definition picks (es : list element_meta) (o : nat * max_occurs) : nat * max_occurs :=
  fold_left (fun o e => (Nat.min (fst o) (el_min e), max_max (snd o) (el_max e))) es o.
Definition smin (es : list element_meta) : nat := list_sum (map el_min es).
Definition smax (es : list element_meta) : max_occurs := fold_right max_plus (Bounded 0) (map el_max es).

Lemma sums_eq es : forall o, sums es o = (fst o + smin es, max_plus (snd o) (smax es)).
Proof.
  unfold sums, smin, smax. induction es as [|e es IH]; intros o; [cbn; rewrite Nat.add_0_r, plus_zero; destruct o; reflexivity|].
  cbn [fold_left]. rewrite IH. cbn. rewrite plus_assoc. f_equal. unfold list_sum. cbn. lia.
Qed.
Lemma smin_cons e es : smin (e :: es) = el_min e + smin es.
Proof. reflexivity. Qed.
Lemma smin_nil : smin [] = 0.
Proof. reflexivity. Qed.
Lemma smin_app a b : smin (a ++ b) = smin a + smin b.
Proof. unfold smin. rewrite map_app, list_sum_app. reflexivity. Qed.
Lemma smax_app a b : smax (a ++ b) = max_plus (smax a) (smax b).
Proof. unfold smax. rewrite map_app, fold_right_app. induction a as [|e a IH]; cbn; [destruct (fold_right max_plus (Bounded 0) (map el_max b)); reflexivity|]. rewrite IH. apply plus_assoc. Qed.

Definition wider (o o' : nat * max_occurs) : Prop := fst o' <= fst o /\ at_most (snd o) (snd o').
Lemma wider_refl o : wider o o.
Proof. split; [lia|]. intros n H. exact H. Qed.
Lemma wider_trans a b c : wider a b -> wider b c -> wider a c.
Proof. intros [A B] [C D]. split; [lia|]. intros n H. apply D, B, H. Qed.
Lemma wider_within o o' n : wider o o' -> within (fst o) (snd o) n -> within (fst o') (snd o') n.
Proof. intros [A B] [C D]. split; [lia|apply B, D]. Qed.
Lemma max_mono a a' b b' : at_most a a' -> at_most b b' -> at_most (max_max a b) (max_max a' b').
Proof. intros A B. destruct (max_join a b) as (_ & _ & J). apply J; intros n H; [apply allows_max_l, A, H|apply allows_max_r, B, H]. Qed.
Lemma picks_wider es : forall o o', wider o o' -> wider (picks es o) (picks es o').
Proof.
  unfold picks. induction es as [|e es IH]; intros o o' W; cbn; [exact W|]. apply IH. destruct W as [A B]. split; cbn; [lia|].
  apply max_mono; [exact B|]. intros n H. exact H.
Qed.
Lemma picks_grow es : forall o, wider o (picks es o).
Proof.
  unfold picks. induction es as [|e es IH]; intros o; cbn; [apply wider_refl|]. eapply wider_trans; [|apply IH].
  split; cbn; [lia|]. intros n. apply allows_max_l.
Qed.
Lemma picks_el es e : In e es -> forall o, wider (el_min e, el_max e) (picks es o).
Proof.
  unfold picks. induction es as [|a es IH]; intros I o; [destruct I|]. destruct I as [->|I]; cbn; [|apply IH, I].
  eapply wider_trans; [|apply (picks_grow es)]. split; cbn; [lia|]. intros n. apply allows_max_r.
Qed.
Lemma picks_map f es : (forall e, wider (el_min e, el_max e) (el_min (f e), el_max (f e))) -> forall o, wider (picks es o) (picks (map f es) o).
Proof.
  intros H. unfold picks. induction es as [|e es IH]; intros o; cbn; [apply wider_refl|].
  eapply wider_trans; [|apply IH]. apply (picks_wider es). destruct (H e) as [A B]. cbn in *. split; cbn; [lia|].
  apply max_mono; [intros n X; exact X|exact B].
Qed.

(** ** Adding elements *)

Lemma find_some id l : forall l1 x l2, find_element id l = Some (l1, x, l2) -> l = l1 ++ x :: l2 /\ el_ident x = id.
Proof.
  induction l as [|e l IH]; cbn; intros l1 x l2 H; [discriminate|]. destruct (pident_eq_dec (el_ident e) id) as [E|D].
  - injection H as <- <- <-. auto.
  - destruct (find_element id l) as [[[a y] b]|]; [|discriminate]. injection H as <- <- <-. destruct (IH _ _ _ eq_refl) as [-> E]. auto.
Qed.
Lemma find_new id l : ~ In id (map el_ident l) -> find_element id l = None.
Proof.
  induction l as [|e l IH]; cbn; intros H; [reflexivity|]. destruct (pident_eq_dec (el_ident e) id); [exfalso; auto|].
  rewrite IH by auto. reflexivity.
Qed.
Lemma same_child x e : el_ident x = el_ident e -> same_variant (el_variant x) (el_variant e) = true -> child_of x = child_of e.
Proof.
  unfold child_of. intros -> S. f_equal. destruct (el_variant x), (el_variant e); try discriminate; try reflexivity.
  cbn in S. destruct (tident_eq_dec t t0) as [->|]; [reflexivity|discriminate].
Qed.

Lemma nodup_l {A} (a b : list A) : NoDup (a ++ b) -> NoDup a.
Proof.
  induction a as [|x a IH]; cbn; intros H; [constructor|]. inversion H; subst. constructor; [|auto]. intros I. apply H2, in_app_iff. auto.
Qed.
Lemma nodup_r {A} (a b : list A) : NoDup (a ++ b) -> NoDup b.
Proof. induction a as [|x a IH]; cbn; intros H; [exact H|]. inversion H; auto. Qed.

Record plain_added (cur es cur' : list element_meta) : Prop := {
  pa_cur : incl (map child_of cur) (map child_of cur');
  pa_es : incl (map child_of es) (map child_of cur');
  pa_min : smin cur' = smin cur + smin es;
  pa_max : smax cur' = max_plus (smax cur) (smax es);
  pa_new : NoDup (map el_ident cur ++ map el_ident es) -> cur' = cur ++ es;
  pa_any : forall w, any_order leafL (cur ++ es) w -> any_order leafL cur' w;
  pa_leaf : Forall leaf cur -> Forall leaf es -> Forall leaf cur' }.

Lemma pa_push cur e : plain_added cur [e] (cur ++ [e]).
Proof.
  split; auto; try (rewrite map_app; [apply incl_appl|apply incl_appr]; apply incl_refl).
  - rewrite map_app. apply incl_appl, incl_refl.
  - rewrite map_app. apply incl_appr, incl_refl.
  - apply smin_app.
  - apply smax_app.
  - intros A B. apply Forall_app. auto.
Qed.
Lemma pa_found l1 x l2 e : el_ident x = el_ident e -> child_of x = child_of e ->
  plain_added (l1 ++ x :: l2) [e] (l1 ++ set_occurs (el_min x + el_min e) (max_plus (el_max x) (el_max e)) x :: l2).
Proof.
  intros Ei Ec. set (y := set_occurs _ _ x).
  assert (Em : map child_of (l1 ++ y :: l2) = map child_of (l1 ++ x :: l2)) by (rewrite !map_app; reflexivity).
  split.
  - rewrite Em. apply incl_refl.
  - rewrite Em. intros c [<-|[]]. rewrite <- Ec. rewrite map_app. apply in_app_iff. right. left. reflexivity.
  - rewrite !smin_app. unfold smin. cbn. lia.
  - rewrite !smax_app. unfold smax. cbn. rewrite plus_zero, <- !plus_assoc. f_equal. f_equal. apply plus_comm.
  - intros ND. exfalso. apply NoDup_remove_2 in ND. apply ND. rewrite app_nil_r. rewrite map_app. apply in_app_iff. right. left. exact Ei.
  - intros w H. rewrite <- app_assoc in H. apply ao_app_inv in H. destruct H as (u & v & U & V & M).
    cbn in V. inversion V as [|? ? px v' ? Px V' M']; subst. apply ao_app_inv in V'. destruct V' as (q & pe & Q & Pe & M2).
    apply (proj1 (ao_one _ _ _)) in Pe. apply mixes_comm in M2. destruct (mixes_assoc' _ _ _ M' _ _ M2) as (z & Z1 & Z2).
    eapply ao_app; [exact U| |exact M]. econstructor; [|exact Q|exact Z2].
    destruct Px as (n & [N1 N2] & ->), Pe as (m & [M3 M4] & ->). exists (n + m). split.
    + split; cbn; [lia|]. apply allows_plus; assumption.
    + apply (mixes_repeat _ _ _ _ Z1); [reflexivity|]. change (child_of y) with (child_of x). rewrite Ec. reflexivity.
  - intros A _. apply Forall_app in A. destruct A as [A B]. inversion B; subst. apply Forall_app. split; [exact A|].
    constructor; assumption.
Qed.
Lemma pa_step cur e es c1 c2 : plain_added cur [e] c1 -> plain_added c1 es c2 -> plain_added cur (e :: es) c2.
Proof.
  intros P Q. split.
  - eapply incl_tran; [apply (pa_cur _ _ _ P)|apply (pa_cur _ _ _ Q)].
  - intros c [<-|I]; [|apply (pa_es _ _ _ Q), I]. apply (pa_cur _ _ _ Q), (pa_es _ _ _ P). left. reflexivity.
  - rewrite (pa_min _ _ _ Q), (pa_min _ _ _ P), !smin_cons, smin_nil. lia.
  - rewrite (pa_max _ _ _ Q), (pa_max _ _ _ P). unfold smax. cbn. rewrite plus_zero, plus_assoc. reflexivity.
  - intros ND. cbn in ND.
    assert (E1 : c1 = cur ++ [e]).
    { apply (pa_new _ _ _ P). apply (nodup_l _ (map el_ident es)). rewrite <- app_assoc. exact ND. }
    rewrite (pa_new _ _ _ Q); [subst; rewrite <- app_assoc; reflexivity|]. subst. rewrite map_app, <- app_assoc. exact ND.
  - intros w H. apply (pa_any _ _ _ Q). replace (cur ++ e :: es) with ((cur ++ [e]) ++ es) in H by (rewrite <- app_assoc; reflexivity).
    apply ao_app_inv in H. destruct H as (u & v & U & V & M). eapply ao_app; [apply (pa_any _ _ _ P); exact U|exact V|exact M].
  - intros A B. inversion B; subst. apply (pa_leaf _ _ _ Q); [apply (pa_leaf _ _ _ P)|]; auto.
Qed.

Definition is_mixed_mode (m : gmode) : Prop := match m with GMixed _ _ => True | _ => False end.

Lemma add_plain e b g b' : b_meta_new b = Some g -> ~ is_mixed_mode (b_new b) -> add_element true e b = Ok b' ->
  exists g', b' = Builder (b_old b) (b_new b) (b_meta_old b) (Some g') /\ plain_added (gr_elements g) [e] (gr_elements g').
Proof.
  intros G NM H. unfold add_element in H. rewrite G in H.
  destruct (find_element (el_ident e) (gr_elements g)) as [[[l1 x] l2]|] eqn:F.
  - destruct (find_some _ _ _ _ _ F) as [E Ei]. destruct (same_variant (el_variant x) (el_variant e)) eqn:S; [|discriminate].
    destruct (b_new b); try (exfalso; apply NM; exact I); injection H as <-; eexists; (split; [reflexivity|]); cbn [gr_elements];
      rewrite E; (apply pa_found; [exact Ei|apply same_child; assumption]).
  - destruct (b_new b); try (exfalso; apply NM; exact I); injection H as <-; eexists; (split; [reflexivity|]); apply pa_push.
Qed.
Lemma add_all_plain es : forall b g b', b_meta_new b = Some g -> ~ is_mixed_mode (b_new b) -> add_all true es b = Ok b' ->
  exists g', b' = Builder (b_old b) (b_new b) (b_meta_old b) (Some g') /\ plain_added (gr_elements g) es (gr_elements g').
Proof.
  induction es as [|e es IH]; intros b g b' G NM H; cbn in H.
  - injection H as <-. exists g. split; [destruct b; cbn in *; subst; reflexivity|].
    split.
    + apply incl_refl.
    + apply incl_nil_l.
    + rewrite smin_nil. lia.
    + change (smax []) with (Bounded 0). rewrite plus_zero. reflexivity.
    + intros _. rewrite app_nil_r. reflexivity.
    + intros w. rewrite app_nil_r. auto.
    + auto.
  - destruct (add_element true e b) as [b1| |] eqn:E; try discriminate.
    destruct (add_plain _ _ _ _ G NM E) as (g1 & -> & P).
    destruct (IH (Builder (b_old b) (b_new b) (b_meta_old b) (Some g1)) g1 _ eq_refl NM H) as (g2 & -> & Q). exists g2. split; [reflexivity|]. eapply pa_step; eassumption.
Qed.

Record unit_added (cur es cur' : list element_meta) : Prop := {
  ua_cur : incl (map child_of cur) (map child_of cur');
  ua_es : incl (map child_of es) (map child_of cur');
  ua_leaf : Forall leaf cur -> Forall leaf es -> Forall leaf cur';
  ua_unit : Forall unit_el cur -> Forall unit_el cur' }.

Lemma ua_push cur e : unit_el e -> unit_added cur [e] (cur ++ [e]).
Proof.
  intros U. split.
  - rewrite map_app. apply incl_appl, incl_refl.
  - rewrite map_app. apply incl_appr, incl_refl.
  - intros A B. apply Forall_app. auto.
  - intros A. apply Forall_app. auto.
Qed.
Lemma ua_same l1 x l2 e : child_of x = child_of e -> unit_added (l1 ++ x :: l2) [e] (l1 ++ x :: l2).
Proof.
  intros E. split; auto; [apply incl_refl|]. intros c [<-|[]]. rewrite <- E, map_app. apply in_app_iff. right. left. reflexivity.
Qed.

Lemma add_mixed e b g mn mx b' : b_meta_new b = Some g -> b_new b = GMixed mn mx -> add_element true e b = Ok b' ->
  exists g' o, occurs_update (b_old b) (mn, mx) (el_min e) (el_max e) = Ok o /\
    b' = Builder (b_old b) (GMixed (fst o) (snd o)) (b_meta_old b) (Some g') /\
    unit_added (gr_elements g) [e] (gr_elements g').
Proof.
  intros G M H. unfold add_element in H. rewrite G, M in H.
  destruct (find_element (el_ident e) (gr_elements g)) as [[[l1 x] l2]|] eqn:F.
  - destruct (find_some _ _ _ _ _ F) as [E Ei]. destruct (same_variant (el_variant x) (el_variant e)) eqn:S; [|discriminate].
    destruct (occurs_update _ _ _ _) as [o| |]; try discriminate. injection H as <-. exists g, o.
    split; [reflexivity|]. split; [reflexivity|]. rewrite E. apply ua_same, same_child; assumption.
  - destruct (occurs_update _ _ _ _) as [o| |]; try discriminate. injection H as <-. eexists. exists o. split; [reflexivity|].
    split; [reflexivity|]. cbn. assert (U : unit_el (reset_occurs e)) by (split; reflexivity).
    destruct (ua_push (gr_elements g) _ U) as [A B C D]. split; auto.
    intros F1 F2. apply C; [exact F1|]. constructor; [|constructor]. inversion F2; assumption.
Qed.

Lemma add_all_mixed es : Forall unit_el es -> forall b g b', b_meta_new b = Some g -> is_mixed_mode (b_new b) -> add_all false es b = Ok b' ->
  exists g', b' = Builder (b_old b) (b_new b) (b_meta_old b) (Some g') /\ unit_added (gr_elements g) es (gr_elements g').
Proof.
  induction 1 as [|e es U F IH]; intros b g b' G M H; cbn in H.
  - injection H as <-. exists g. split; [destruct b; cbn in *; subst; reflexivity|]. split; auto; [apply incl_refl|apply incl_nil_l].
  - assert (S : exists g1, add_element false e b = Ok (Builder (b_old b) (b_new b) (b_meta_old b) (Some g1)) /\ unit_added (gr_elements g) [e] (gr_elements g1) \/
                add_element false e b = Err FlMismatch).
    { unfold add_element. rewrite G. destruct (find_element (el_ident e) (gr_elements g)) as [[[l1 x] l2]|] eqn:Fd.
      - destruct (find_some _ _ _ _ _ Fd) as [E Ei]. exists g. destruct (same_variant (el_variant x) (el_variant e)) eqn:S; [left|right; reflexivity].
        split; [destruct b; cbn in *; subst; reflexivity|]. rewrite E. apply ua_same, same_child; assumption.
      - eexists. left. split; [reflexivity|]. cbn. apply ua_push, U. }
    destruct S as (g1 & [[S P]|S]); rewrite S in H; [|discriminate].
    destruct (IH (Builder (b_old b) (b_new b) (b_meta_old b) (Some g1)) g1 _ eq_refl M H) as (g2 & -> & [Q1 Q2 Q3 Q4]). exists g2. split; [reflexivity|]. destruct P as [P1 P2 P3 P4].
    split.
    + eapply incl_tran; eassumption.
    + intros c [<-|I]; [apply Q1, P2; left; reflexivity|apply Q2, I].
    + intros A B. inversion B; subst. apply Q3; [apply P3|]; auto.
    + auto.
Qed.

(** ** The loop over the elements of a group *)

Definition els_of (b : builder) (prev : list element_meta) : list element_meta :=
  match b_meta_new b with Some g => gr_elements g | None => prev end.
Definition bounds (m : gmode) (es : list element_meta) : nat * max_occurs :=
  match m with
  | GAll | GSequence => sums es (0, Bounded 0)
  | GChoice => picks es (1, Bounded 1)
  | GMixed mn mx => (mn, mx)
  end.
Definition letters (es : list element_meta) (w : list child) : Prop := Forall (fun c => In c (map child_of es)) w.
Definition mixed_ok (o : nat * max_occurs) (es : list element_meta) (w : list child) : Prop :=
  letters es w /\ within (fst o) (snd o) (length w).
Definition lang (m : gmode) (es : list element_meta) (w : list child) : Prop :=
  match m with
  | GAll | GSequence => any_order leafL es w
  | GChoice => exists e, In e es /\ leafL e w
  | GMixed mn mx => mixed_ok (mn, mx) es w
  end.
Definition group_lang (P : element_meta -> list child -> Prop) (m : gmode) (es : list element_meta) (w : list child) : Prop :=
  match m with
  | GAll => any_order P es w
  | GSequence => in_order P es w
  | GChoice => exists e, In e es /\ P e w
  | GMixed _ _ => False
  end.

Lemma letters_mono es es' w : incl (map child_of es) (map child_of es') -> letters es w -> letters es' w.
Proof. intros I. apply Forall_impl. intros c. apply I. Qed.
Lemma letters_nil es : letters es [].
Proof. constructor. Qed.

Lemma any_weak es w : any_order leafL es w -> letters es w /\ within (smin es) (smax es) (length w).
Proof.
  induction 1 as [|e es u v w P A IH M].
  - split; [constructor|]. split; cbn; lia.
  - destruct (leaf_word _ _ P) as [F [W1 W2]], IH as [L [V1 V2]]. split.
    + eapply mixes_forall; [exact M| |].
      * eapply Forall_impl; [|exact F]. intros c <-. left. reflexivity.
      * eapply letters_mono; [|exact L]. intros c I. right. exact I.
    + rewrite (mixes_length _ _ _ M), smin_cons. split; [lia|]. apply allows_plus; assumption.
Qed.
Lemma lang_weak m es w : lang m es w -> mixed_ok (bounds m es) es w.
Proof.
  destruct m; cbn; intros H; [| | |exact H].
  - unfold mixed_ok. cbn. rewrite sums_eq. apply any_weak in H. destruct H as [A [B C]]. split; [exact A|].
    split; cbn; [exact B|]. destruct (smax es); [exact I|exact C].
  - destruct H as (e & I & H). destruct (leaf_word _ _ H) as [F W]. split.
    + eapply Forall_impl; [|exact F]. intros c <-. apply in_map, I.
    + eapply wider_within; [apply (picks_el es e I)|exact W].
  - unfold mixed_ok. cbn. rewrite sums_eq. apply any_weak in H. destruct H as [A [B C]]. split; [exact A|].
    split; cbn; [exact B|]. destruct (smax es); [exact I|exact C].
Qed.

Section loop.
  Variable ts : types.
  Hypothesis NE : no_empty_choice ts.
  Hypothesis DA : distinct_alternatives ts.

  Record linv (m : gmode) (prev : list element_meta) (b : builder) (ol : option (list pident)) : Prop := {
    li_mode : ~ is_mixed_mode m;
    li_old : b_old b = m;
    li_new : b_new b = m \/ is_mixed_mode (b_new b);
    li_none : b_meta_new b = None -> b_new b = m;
    li_leaf : Forall leaf (els_of b prev);
    li_unit : is_mixed_mode (b_new b) -> Forall unit_el (els_of b prev);
    li_lang : forall w, group_lang (part ts) m prev w -> lang (b_new b) (els_of b prev) w;
    li_names : b_new b = GChoice \/ b_new b = GSequence -> forall l, ol = Some l -> map el_ident (els_of b prev) = l;
    li_some : b_new b = GChoice -> prev <> [] -> els_of b prev <> [];
    li_seqs : b_new b = GSequence -> forall e t, In e prev -> is_group e = Some t -> at_most (el_max e) (Bounded 1) /\ only_sequences ts t;
    li_seq : b_new b = GSequence -> forall l, ol = Some l -> forall w, in_order (part ts) prev w -> in_order leafL (els_of b prev) w }.

  Definition rest_ok (m : gmode) (ol : option (list pident)) (rest : list element_meta) (ol' : option (list pident)) : Prop :=
    match m with
    | GChoice => exists l1 l2, ol = Some l1 /\ alternatives ts rest l2 /\ ol' = Some (l1 ++ l2) /\ NoDup (l1 ++ l2)
    | GSequence => (ol = None /\ ol' = None) \/
        exists l1 l2, ol = Some l1 /\ nested_all ts rest l2 /\ ol' = Some (l1 ++ l2) /\ NoDup (l1 ++ l2)
    | _ => ol = ol'
    end.

  Lemma alts_tail e es l : alternatives ts (e :: es) l -> exists h lr, l = h ++ lr /\ alternatives ts es lr.
  Proof.
    inversion 1; subst.
    - exists [el_ident e], l0. auto.
    - exists l1, l2. auto.
    - exists [], l. auto.
  Qed.
  Lemma nested_tail e es l : nested_all ts (e :: es) l -> exists h lr, l = h ++ lr /\ nested_all ts es lr.
  Proof.
    inversion 1; subst.
    - exists [el_ident e], l0. auto.
    - exists l1, l2. auto.
  Qed.
  Lemma rest_tail m ol e rest ol' : rest_ok m ol (e :: rest) ol' -> exists ol1, rest_ok m ol1 rest ol'.
  Proof.
    destruct m; cbn.
    - eauto.
    - intros (l1 & l2 & -> & A & -> & ND). destruct (alts_tail _ _ _ A) as (h & lr & -> & A').
      exists (Some (l1 ++ h)), (l1 ++ h), lr. rewrite <- app_assoc. auto.
    - intros [[-> ->]|(l1 & l2 & -> & A & -> & ND)]; [exists None; auto|]. destruct (nested_tail _ _ _ A) as (h & lr & -> & A').
      exists (Some (l1 ++ h)). right. exists (l1 ++ h), lr. rewrite <- app_assoc. auto.
    - eauto.
  Qed.

  Lemma step_plain m prev b ol e es b1 rest ol' :
    linv m prev b ol -> rest_ok m ol (e :: rest) ol' -> b_new b = m -> b_old b1 = m -> b_new b1 = m ->
    plain_added (els_of b prev) es (els_of b1 (prev ++ [e])) -> Forall leaf es ->
    (forall w, part ts e w -> lang m es w) ->
    (m = GSequence -> forall t, is_group e = Some t -> at_most (el_max e) (Bounded 1) /\ only_sequences ts t) ->
    (m = GChoice -> es <> []) ->
    (m = GChoice -> forall l, alternatives ts (e :: rest) l -> NoDup l -> exists lr, l = map el_ident es ++ lr /\ alternatives ts rest lr) ->
    (m = GSequence -> forall l, nested_all ts (e :: rest) l -> NoDup l ->
       exists lr, l = map el_ident es ++ lr /\ nested_all ts rest lr /\ forall w, part ts e w -> in_order leafL es w) ->
    exists ol1, linv m (prev ++ [e]) b1 ol1 /\ rest_ok m ol1 rest ol'.
  Proof.
    intros Li R N O1 N1 P Fe Le Se Ne Ae Qe. destruct Li as [Lm Lo Ln Lx Lf Lu Ll La Ls Lq Lz].
    set (cur := els_of b prev) in *. set (cur' := els_of b1 (prev ++ [e])) in *.
    destruct m as [| | |mn mx]; [| | |exfalso; apply Lm; exact I].
    - exists ol. split; [|exact R].
      split; fold cur'; [exact Lm|exact O1|left; exact N1|intros _; exact N1|apply (pa_leaf _ _ _ P); assumption
        |rewrite N1; intros []| |rewrite N1; intros [X|X]; discriminate|rewrite N1; discriminate|rewrite N1; discriminate|rewrite N1; discriminate].
      + rewrite N1. intros w H. apply ao_app_inv in H. destruct H as (u & v & U & V & M). apply (pa_any _ _ _ P).
        eapply ao_app; [|apply Le; apply (proj1 (ao_one _ _ _)) in V; exact V|exact M]. rewrite N in Ll. apply Ll, U.
    - destruct R as (l1 & l2 & -> & A & -> & ND).
      destruct (Ae eq_refl _ A (nodup_r _ _ ND)) as (lr & -> & A').
      assert (Nm : map el_ident cur = l1) by (apply La; auto).
      assert (E : cur' = cur ++ es).
      { apply (pa_new _ _ _ P). rewrite Nm. apply (nodup_l _ lr). rewrite <- app_assoc. exact ND. }
      exists (Some (l1 ++ map el_ident es)). split; [|exists (l1 ++ map el_ident es), lr; rewrite <- app_assoc; auto].
      split; fold cur'; [exact Lm|exact O1|left; exact N1|intros _; exact N1|apply (pa_leaf _ _ _ P); assumption
        |rewrite N1; intros []| | | |rewrite N1; discriminate|rewrite N1; discriminate].
      + rewrite N1. intros w (x & I & H). apply in_app_iff in I. rewrite N in Ll. destruct I as [I|[<-|[]]].
        * destruct (Ll w) as (y & Y1 & Y2); [exists x; auto|]. exists y. split; [rewrite E; apply in_app_iff; auto|exact Y2].
        * destruct (Le w H) as (y & Y1 & Y2). exists y. split; [rewrite E; apply in_app_iff; auto|exact Y2].
      + intros _ l [= <-]. rewrite E, map_app, Nm. reflexivity.
      + intros _ _ Z. rewrite E in Z. apply app_eq_nil in Z. apply (Ne eq_refl), Z.
    - assert (Lw : forall w, in_order (part ts) (prev ++ [e]) w -> any_order leafL cur' w).
      { intros w H. apply io_snoc in H. destruct H as (u & v & -> & U & V). apply (pa_any _ _ _ P).
        rewrite N in Ll. eapply ao_app; [apply Ll, U|apply Le, V|apply mixes_concat]. }
      assert (Lt : forall x t, In x (prev ++ [e]) -> is_group x = Some t -> at_most (el_max x) (Bounded 1) /\ only_sequences ts t).
      { intros x t I. apply in_app_iff in I. destruct I as [I|[<-|[]]]; [apply (Lq N); exact I|apply Se; reflexivity]. }
      destruct R as [[-> ->]|(l1 & l2 & -> & A & -> & ND)].
      + exists None. split; [|left; auto].
        split; fold cur'; [exact Lm|exact O1|left; exact N1|intros _; exact N1|apply (pa_leaf _ _ _ P); assumption
          |rewrite N1; intros []|rewrite N1; exact Lw|discriminate|rewrite N1; discriminate|intros _; exact Lt|discriminate].
      + destruct (Qe eq_refl _ A (nodup_r _ _ ND)) as (lr & -> & A' & St).
        assert (Nm : map el_ident cur = l1) by (apply La; auto).
        assert (E : cur' = cur ++ es).
        { apply (pa_new _ _ _ P). rewrite Nm. apply (nodup_l _ lr). rewrite <- app_assoc. exact ND. }
        exists (Some (l1 ++ map el_ident es)). split; [|right; exists (l1 ++ map el_ident es), lr; rewrite <- app_assoc; auto].
        split; fold cur'; [exact Lm|exact O1|left; exact N1|intros _; exact N1|apply (pa_leaf _ _ _ P); assumption
          |rewrite N1; intros []|rewrite N1; exact Lw| |rewrite N1; discriminate|intros _; exact Lt| ].
        * intros _ l [= <-]. rewrite E, map_app, Nm. reflexivity.
        * intros _ l [= <-] w H. apply io_snoc in H. destruct H as (u & v & -> & U & V). rewrite E.
          apply io_app; [apply (Lz N _ eq_refl), U|apply St, V].
  Qed.

  Lemma step_mixed m prev e es mn mx o c0 o0 b1 g1 ol rest ol' :
    ~ is_mixed_mode m -> rest_ok m ol (e :: rest) ol' ->
    (forall w, group_lang (part ts) m prev w -> mixed_ok o0 c0 w) -> Forall leaf c0 -> Forall unit_el c0 ->
    occurs_update m o0 mn mx = Ok o -> b_old b1 = m -> b_new b1 = GMixed (fst o) (snd o) -> b_meta_new b1 = Some g1 ->
    unit_added c0 es (gr_elements g1) -> Forall leaf es ->
    (forall w, part ts e w -> mixed_ok (mn, mx) es w) ->
    exists ol1, linv m (prev ++ [e]) b1 ol1 /\ rest_ok m ol1 rest ol'.
  Proof.
    intros Nm R L0 F0 U0 Oc O1 N1 G1 A Fe Pe. destruct (rest_tail _ _ _ _ _ R) as (ol1 & R1). exists ol1. split; [|exact R1].
    assert (E : els_of b1 (prev ++ [e]) = gr_elements g1) by (unfold els_of; rewrite G1; reflexivity).
    split; rewrite ?E, ?N1; [exact Nm|exact O1|right; exact I|rewrite G1; discriminate|apply (ua_leaf _ _ _ A); assumption
      |intros _; apply (ua_unit _ _ _ A), U0| |intros [X|X]; discriminate|discriminate|discriminate|discriminate].
    - intros w H.
      assert (Hs : forall u v, mixed_ok o0 c0 u -> mixed_ok (mn, mx) es v -> mixes u v w -> mixed_ok (fst o0 + mn, max_plus (snd o0) mx) (gr_elements g1) w).
      { intros u v [X1 [X2 X3]] [Y1 [Y2 Y3]] M. split.
        - eapply mixes_forall; [exact M|eapply letters_mono; [apply (ua_cur _ _ _ A)|exact X1]|eapply letters_mono; [apply (ua_es _ _ _ A)|exact Y1]].
        - rewrite (mixes_length _ _ _ M). split; cbn in *; [lia|]. apply allows_plus; assumption. }
      destruct m as [| | |]; [| | |exfalso; apply Nm; exact I]; cbn in Oc, H; injection Oc as <-.
      + apply ao_app_inv in H. destruct H as (u & v & U & V & M). apply (proj1 (ao_one _ _ _)) in V. eapply Hs; [apply L0, U|apply Pe, V|exact M].
      + destruct H as (x & I & H). apply in_app_iff in I. destruct I as [I|[<-|[]]].
        * destruct (L0 w) as [X1 X2]; [exists x; auto|]. split; [eapply letters_mono; [apply (ua_cur _ _ _ A)|exact X1]|].
          eapply (wider_within o0); [|exact X2]. split; cbn; [lia|]. intros n. apply allows_max_l.
        * destruct (Pe w H) as [X1 X2]. split; [eapply letters_mono; [apply (ua_es _ _ _ A)|exact X1]|].
          eapply (wider_within (mn, mx)); [|exact X2]. split; cbn; [lia|]. intros n. apply allows_max_r.
      + apply io_snoc in H. destruct H as (u & v & -> & U & V). eapply Hs; [apply L0, U|apply Pe, V|apply mixes_concat].
  Qed.

  Definition okol (m : gmode) (els : list element_meta) (ol : option (list pident)) : Prop :=
    exists ol0, (ol0 = None \/ ol0 = Some []) /\ rest_ok m ol0 els ol.
  Definition fspec (t : tident) (b : builder) : Prop :=
    exists ty m g, lookup t ts = Some ty /\ group_of (m_variant ty) = Some (m, g) /\ b_meta_old b = g /\
      (exists l, alternatives ts (gr_elements g) l) /\
      forall ol, okol m (gr_elements g) ol -> linv m (gr_elements g) b ol.

  Lemma accepts_lang t ty m g w : lookup t ts = Some ty -> group_of (m_variant ty) = Some (m, g) ->
    accepts ts t w -> group_lang (part ts) m (gr_elements g) w.
  Proof.
    intros L G H. destruct H as [i ty' g' w L' V H|i ty' g' e w L' V I H|i ty' g' w L' V H];
      rewrite L in L'; injection L' as <-; rewrite V in G; injection G as <- <-; cbn; [exact H|exists e; auto|exact H].
  Qed.

  Lemma group_mode v m g : group_of v = Some (m, g) -> ~ is_mixed_mode m.
  Proof. destruct v; cbn; intros [= <- <-] []. Qed.

  (** A plain element. *)
  Lemma step_leaf m prev b ol e b1 rest ol' :
    linv m prev b ol -> rest_ok m ol (e :: rest) ol' -> is_group e = None -> add_element true e b = Ok b1 ->
    exists ol1, linv m (prev ++ [e]) b1 ol1 /\ rest_ok m ol1 rest ol'.
  Proof.
    intros Li R Lf H.
    assert (Pl : forall b1', b_new b = m -> b_old b1' = m -> b_new b1' = m -> plain_added (els_of b prev) [e] (els_of b1' (prev ++ [e])) ->
              exists ol1, linv m (prev ++ [e]) b1' ol1 /\ rest_ok m ol1 rest ol').
    { intros b1' N O1 N1 P. eapply step_plain; [exact Li|exact R|exact N|exact O1|exact N1|exact P|constructor; [exact Lf|constructor]| | | | | ].
      - intros w Pw. apply (leaf_part _ _ _ Lf) in Pw. destruct m; cbn; [apply ao_one, Pw|exists e; cbn; auto|apply ao_one, Pw|].
        exfalso. apply (li_mode _ _ _ _ Li). exact I.
      - intros _ t E. congruence.
      - intros _ E. discriminate.
      - intros _ l A _. inversion A; subst; try congruence. exists l0. auto.
      - intros _ l A _. inversion A; subst; try congruence. exists l0. split; [reflexivity|]. split; [assumption|].
        intros w Pw. apply (leaf_part _ _ _ Lf) in Pw. rewrite <- (app_nil_r w). constructor; [exact Pw|constructor]. }
    destruct (b_meta_new b) as [g|] eqn:G.
    - destruct (li_new _ _ _ _ Li) as [N|N].
      + assert (NM : ~ is_mixed_mode (b_new b)) by (rewrite N; apply (li_mode _ _ _ _ Li)).
        destruct (add_plain _ _ _ _ G NM H) as (g' & -> & P). apply Pl; [exact N|apply (li_old _ _ _ _ Li)|exact N|].
        unfold els_of. rewrite G. exact P.
      + destruct (b_new b) as [| | |mn mx] eqn:Nb; try (destruct N).
        destruct (add_mixed _ _ _ _ _ _ G Nb H) as (g' & o & Oc & -> & A). rewrite (li_old _ _ _ _ Li) in *.
        assert (Ec : els_of b prev = gr_elements g) by (unfold els_of; rewrite G; reflexivity).
        eapply (step_mixed m prev e [e] (el_min e) (el_max e) o (gr_elements g) (mn, mx));
          [apply (li_mode _ _ _ _ Li)|exact R| | | |exact Oc|reflexivity|reflexivity|reflexivity|exact A|constructor; [exact Lf|constructor]| ].
        * intros w W. pose proof (li_lang _ _ _ _ Li w W) as X. rewrite Nb, Ec in X. exact X.
        * rewrite <- Ec. apply (li_leaf _ _ _ _ Li).
        * rewrite <- Ec. apply (li_unit _ _ _ _ Li). rewrite Nb. exact I.
        * intros w Pw. apply (leaf_part _ _ _ Lf) in Pw. destruct (leaf_word _ _ Pw) as [F W]. split; [|exact W].
          eapply Forall_impl; [|exact F]. intros c <-. left. reflexivity.
    - assert (N : b_new b = m) by (apply (li_none _ _ _ _ Li), G).
      assert (E : b1 = b) by (unfold add_element in H; rewrite G in H; congruence). subst b1.
      apply Pl; [exact N|apply (li_old _ _ _ _ Li)|exact N|]. unfold els_of. rewrite G. apply pa_push.
  Qed.

  Lemma part_inv e t w : is_group e = Some t -> part ts e w -> exists n, within (el_min e) (el_max e) n /\ times (accepts ts t) n w.
  Proof. intros E H. inversion H; subst; [|congruence]. exists n. rewrite E in H0. injection H0 as <-. auto. Qed.

  Lemma scale_names a b es : map el_ident (map (scale a b) es) = map el_ident es.
  Proof. rewrite map_map. reflexivity. Qed.
  Lemma scale_leaf a b es : Forall leaf es -> Forall leaf (map (scale a b) es).
  Proof. induction 1; constructor; auto. Qed.
  Lemma scale_empty a b es : a = 0 -> in_order leafL (map (scale a b) es) [].
  Proof.
    intros ->. induction es as [|e es IH]; [constructor|]. cbn. apply (io_cons leafL _ _ [] []); [|exact IH].
    exists 0. split; [|reflexivity]. split; cbn; [lia|]. destruct (el_max e), b; cbn; auto; lia.
  Qed.

  (** The words of a nested group that is merged as it is. *)
  Lemma kept_lang m t es e w :
    is_group e = Some t -> (m = GAll \/ at_most (el_max e) (Bounded 1)) -> ~ is_mixed_mode m ->
    (forall v, accepts ts t v -> lang m es v) -> (m = GChoice -> es <> []) -> part ts e w ->
    lang m (map (scale (el_min e) (el_max e)) es) w.
  Proof.
    intros G Mx Nm La Ne Pw. destruct (part_inv _ _ _ G Pw) as (n & Wn & T). apply (times_impl _ _ _ _ La) in T.
    destruct m; cbn in *; [apply (scale_any _ _ _ _ _ T Wn)| |apply (scale_any _ _ _ _ _ T Wn)|exfalso; apply Nm; exact I].
    destruct Mx as [X|Mx]; [discriminate|]. pose proof (Mx n (proj2 Wn)) as X. cbn in X.
    destruct (times_few _ _ _ T X) as [[-> ->]|[-> (x & I & Wx)]].
    - destruct es as [|x es]; [exfalso; apply (Ne eq_refl); reflexivity|]. exists (scale (el_min e) (el_max e) x). split; [left; reflexivity|].
      eapply leaf_scale; [constructor|exact Wn].
    - exists (scale (el_min e) (el_max e) x). split; [apply in_map, I|]. eapply leaf_scale; [|exact Wn].
      rewrite <- (app_nil_r w). apply times_more; [exact Wx|constructor].
  Qed.
  Lemma kept_order t es e w :
    is_group e = Some t -> at_most (el_max e) (Bounded 1) ->
    (forall v, accepts ts t v -> in_order leafL es v) -> part ts e w ->
    in_order leafL (map (scale (el_min e) (el_max e)) es) w.
  Proof.
    intros G Mx La Pw. destruct (part_inv _ _ _ G Pw) as (n & Wn & T). apply (times_impl _ _ _ _ La) in T.
    pose proof (Mx n (proj2 Wn)) as X. cbn in X. destruct (times_few _ _ _ T X) as [[-> ->]|[-> O]].
    - apply scale_empty. destruct Wn. lia.
    - eapply io_map; [|exact O]. intros x v V. eapply leaf_scale; [|exact Wn]. rewrite <- (app_nil_r v). apply times_more; [exact V|constructor].
  Qed.

  Lemma into_mixed_spec b es0 : els_of b (gr_elements (b_meta_old b)) = es0 ->
    (is_mixed_mode (b_new b) -> Forall unit_el es0) -> Forall leaf es0 ->
    exists g, into_mixed b = Builder (b_old b) (GMixed (fst (bounds (b_new b) es0)) (snd (bounds (b_new b) es0))) (b_meta_old b) (Some g) /\
      map child_of (gr_elements g) = map child_of es0 /\ Forall leaf (gr_elements g) /\ Forall unit_el (gr_elements g).
  Proof.
    intros E U Lf. unfold into_mixed, els_of in *. set (g := match b_meta_new b with Some g => g | None => b_meta_old b end).
    assert (Eg : gr_elements g = es0) by (unfold g; destruct (b_meta_new b); exact E).
    assert (Rs : map child_of (map reset_occurs es0) = map child_of es0) by (rewrite map_map; reflexivity).
    assert (Rl : Forall leaf (map reset_occurs es0)) by (clear -Lf; induction Lf; constructor; auto).
    assert (Ru : Forall unit_el (map reset_occurs es0)) by (clear; induction es0; constructor; [split; reflexivity|auto]).
    rewrite Eg. destruct (b_new b) as [| | |mn mx]; cbn [bounds fst snd]; (eexists; split; [reflexivity|]); cbn [gr_elements]; rewrite ?Eg; auto.
    split; [reflexivity|]. split; [exact Lf|]. apply U. exact I.
  Qed.

  Lemma keep_inv e a b : keep_modes e a b = true -> a = b /\ ~ is_mixed_mode a /\ (a = GAll \/ at_most (el_max e) (Bounded 1)).
  Proof.
    destruct a, b; cbn; try discriminate; intros H; (split; [reflexivity|]); (split; [intros []|]); auto; right; apply at_most_leb, H.
  Qed.

  (** A nested group. *)
  Lemma step_group m prev b ol e t inner b1 rest ol' :
    linv m prev b ol -> rest_ok m ol (e :: rest) ol' -> is_group e = Some t -> fspec t inner -> merge e prev inner b = Ok b1 ->
    exists ol1, linv m (prev ++ [e]) b1 ol1 /\ rest_ok m ol1 rest ol'.
  Proof.
    intros Li R Ge (ty & m' & g' & Lt & Gt & Mo & (la & Al) & Fs) H.
    pose proof (group_mode _ _ _ Gt) as Nm'.
    assert (O0 : exists oli, okol m' (gr_elements g') oli).
    { destruct m' as [| | |]; [exists None, None; cbn; auto| |exists None, None; cbn; auto|exfalso; apply Nm'; exact I].
      exists (Some la), (Some []). split; [auto|]. exists [], la. split; [reflexivity|]. split; [exact Al|]. split; [reflexivity|].
      assert (V : m_variant ty = VChoice g') by (destruct (m_variant ty); cbn in Gt; try discriminate; congruence).
      exact (DA _ _ _ _ Lt V Al). }
    destruct O0 as (oli & O0). pose proof (Fs _ O0) as Fi.
    set (es := els_of inner (gr_elements g')) in *.
    assert (Ei : els_of inner (gr_elements (b_meta_old inner)) = es) by (rewrite Mo; reflexivity).
    set (g0 := match b_meta_new b with Some g => g | None => GroupMeta (gr_mixed (b_meta_old b)) prev end).
    assert (E0 : gr_elements g0 = els_of b prev) by (unfold g0, els_of; destruct (b_meta_new b); reflexivity).
    unfold merge in H. fold g0 in H. cbn [b_new] in H.
    assert (Acc : forall v, accepts ts t v -> lang (b_new inner) es v).
    { intros v V. apply (li_lang _ _ _ _ Fi). eapply accepts_lang; eassumption. }
    destruct (keep_modes e (b_new b) (b_new inner)) eqn:K.
    - destruct (keep_inv _ _ _ K) as (Kn & Km & Kx).
      assert (N : b_new b = m) by (destruct (li_new _ _ _ _ Li) as [X|X]; [exact X|contradiction]).
      assert (Em : m' = b_new inner).
      { destruct (li_new _ _ _ _ Fi) as [X|X]; [auto|]. rewrite <- Kn in X. contradiction. }
      set (meta := match b_meta_new inner with Some g => g | None => b_meta_old inner end).
      assert (Eme : gr_elements meta = es) by (unfold meta, es, els_of; destruct (b_meta_new inner); [reflexivity|rewrite Mo; reflexivity]).
      clear Mo Ei. unfold into_meta in H. fold meta in H. cbn [b_new b_old b_meta_new b_meta_old] in H.
      assert (H' : add_all true (map (scale (el_min e) (el_max e)) es)
                (Builder (b_old b) (b_new b) (b_meta_old b) (Some (GroupMeta (gr_mixed g0 || gr_mixed meta) (gr_elements g0)))) = Ok b1).
      { rewrite <- Eme. rewrite <- Kn in H. destruct (b_new b); [exact H|exact H|exact H|exfalso; apply Km; exact I]. }
      clear H. apply add_all_plain with (g := GroupMeta (gr_mixed g0 || gr_mixed meta) (gr_elements g0)) in H'; [|reflexivity|exact Km].
      destruct H' as (g1 & -> & P). cbn [b_old b_new b_meta_old gr_elements] in *. rewrite E0 in P.
      assert (Cn : b_new inner = GChoice -> es <> []).
      { intros X. apply (li_some _ _ _ _ Fi); [exact X|]. apply (NE _ _ _ Lt). rewrite X in Em. subst m'.
        destruct (m_variant ty); cbn in Gt; try discriminate. congruence. }
      rewrite N in Kn. rewrite <- Kn in *. subst m'.
      eapply step_plain; [exact Li|exact R|exact N|apply (li_old _ _ _ _ Li)|exact N|exact P|apply scale_leaf, (li_leaf _ _ _ _ Fi)| | | | | ].
      + intros w Pw. rewrite N in Kx, Km. apply (kept_lang m t es e w Ge Kx Km Acc Cn Pw).
      + intros X t' G'. rewrite Ge in G'. injection G' as <-. rewrite N in Kx. destruct Kx as [Kx|Kx]; [congruence|]. split; [exact Kx|].
        assert (V : m_variant ty = VSequence g').
        { rewrite X in Gt. destruct (m_variant ty); cbn in Gt; try discriminate. congruence. }
        apply (os_group ts t ty g' Lt V). intros x t' I G'. rewrite X in Fi, Kn. apply (li_seqs _ _ _ _ Fi (eq_sym Kn) x t' I G').
      + intros X Z. apply map_eq_nil in Z. apply (Cn X Z).
      + intros X l A ND. rewrite scale_names.
        assert (V : m_variant ty = VChoice g').
        { rewrite X in Gt. destruct (m_variant ty); cbn in Gt; try discriminate. congruence. }
        inversion A as [|? ? ? Z|? ? t2 ty2 g2 l1 l2 G2 L2 V2 A1 A2|? ? t2 ? G2 Nc]; subst; try congruence.
        * rewrite Ge in G2. injection G2 as <-. rewrite Lt in L2. injection L2 as <-. rewrite V in V2. injection V2 as <-.
          assert (Fc : linv (b_new inner) (gr_elements g') inner (Some l1)).
          { apply Fs. exists (Some []). split; [auto|]. rewrite X. exists [], l1. split; [reflexivity|]. split; [exact A1|].
            split; [reflexivity|]. apply (nodup_l _ l2), ND. }
          exists l2. split; [|exact A2]. f_equal. symmetry. apply (li_names _ _ _ _ Fc); [left; congruence|reflexivity].
        * exfalso. rewrite Ge in G2. injection G2 as <-. exact (Nc _ _ Lt V).
      + intros X l A ND. rewrite scale_names.
        inversion A as [|? ? ? Z|? ? t2 l1 l2 G2 A1 A2]; subst; try congruence.
        rewrite Ge in G2. injection G2 as <-. inversion A1 as [? ty2 m2 g2 ? L2 V2 A3]; subst. rewrite Lt in L2. injection L2 as <-.
        rewrite Gt in V2. injection V2 as <- <-.
        assert (Fc : linv (b_new inner) (gr_elements g') inner (Some l1)).
        { apply Fs. exists (Some []). split; [auto|]. rewrite X. right. exists [], l1. split; [reflexivity|]. split; [exact A3|].
          split; [reflexivity|]. apply (nodup_l _ l2), ND. }
        assert (Xi : b_new inner = GSequence) by congruence.
        exists l2. split; [|split; [exact A2|]].
        * f_equal. symmetry. apply (li_names _ _ _ _ Fc); [right; exact Xi|reflexivity].
        * intros w Pw. destruct Kx as [Kx|Kx]; [congruence|]. apply (kept_order t es e w Ge Kx); [|exact Pw].
          intros v V. apply (li_seq _ _ _ _ Fc Xi l1 eq_refl). apply (accepts_lang _ _ _ _ _ Lt Gt) in V. rewrite X in V. exact V.
    - clear K.
      destruct (into_mixed_spec (Builder (b_old b) (b_new b) (b_meta_old b) (Some g0)) (els_of b prev)) as (g1 & E1 & C1 & L1 & U1);
        [cbn; exact E0|apply (li_unit _ _ _ _ Li)|apply (li_leaf _ _ _ _ Li)|].
      destruct (into_mixed_spec inner es Ei (li_unit _ _ _ _ Fi) (li_leaf _ _ _ _ Fi)) as (g2 & E2 & C2 & L2 & U2).
      rewrite E1, E2 in H. unfold into_meta in H. cbn [b_old b_new b_meta_new b_meta_old] in H.
      set (o0 := bounds (b_new b) (els_of b prev)) in *. set (oi := bounds (b_new inner) es) in *.
      rewrite (li_old _ _ _ _ Li) in H.
      destruct (occurs_update m (fst o0, snd o0) _ _) as [o| |] eqn:Oc; try discriminate.
      apply add_all_mixed with (g := GroupMeta (gr_mixed g1 || gr_mixed g2) (gr_elements g1)) in H;
        [|clear; induction (gr_elements g2); constructor; [split; reflexivity|assumption]|reflexivity|exact I].
      destruct H as (g3 & -> & A). cbn [b_old b_new b_meta_old gr_elements] in *.
      assert (Rs : map child_of (map reset_occurs (gr_elements g2)) = map child_of es) by (rewrite map_map; exact C2).
      eapply (step_mixed m prev e (map reset_occurs (gr_elements g2)) (fst oi * el_min e) (max_times (snd oi) (el_max e)) o (gr_elements g1) (fst o0, snd o0));
        [apply (li_mode _ _ _ _ Li)|exact R| |exact L1|exact U1|exact Oc|reflexivity|reflexivity|reflexivity|exact A| | ].
      + intros w W. pose proof (lang_weak _ _ _ (li_lang _ _ _ _ Li w W)) as [X1 X2]. split; [|exact X2].
        unfold letters. rewrite C1. exact X1.
      + clear -L2. induction L2; constructor; auto.
      + intros w Pw. destruct (part_inv _ _ _ Ge Pw) as (n & Wn & T).
        assert (Hb : forall v, accepts ts t v -> Forall (fun c => In c (map child_of es)) v /\ within (fst oi) (snd oi) (length v)).
        { intros v V. exact (lang_weak _ _ _ (Acc v V)). }
        destruct (times_bounds _ _ _ _ _ _ _ _ Hb T Wn) as [F W]. split; [|exact W]. unfold letters. rewrite Rs. exact F.
  Qed.

  Lemma add_element_old u e b b' : add_element u e b = Ok b' -> b_meta_old b' = b_meta_old b.
  Proof.
    unfold add_element. destruct (b_meta_new b); [|congruence]. destruct (find_element _ _) as [[[l1 x] l2]|].
    - destruct (same_variant _ _), u; try discriminate; try congruence. destruct (b_new b); try (intros [= <-]; reflexivity).
      destruct (occurs_update _ _ _ _); try discriminate. intros [= <-]. reflexivity.
    - destruct u; [|intros [= <-]; reflexivity]. destruct (b_new b); try (intros [= <-]; reflexivity).
      destruct (occurs_update _ _ _ _); try discriminate. intros [= <-]. reflexivity.
  Qed.
  Lemma add_all_old u l : forall b b', add_all u l b = Ok b' -> b_meta_old b' = b_meta_old b.
  Proof.
    induction l as [|e l IH]; cbn; intros b b' H; [congruence|]. destruct (add_element u e b) as [b1| |] eqn:E; try discriminate.
    rewrite (IH _ _ H). eapply add_element_old; exact E.
  Qed.
  Lemma merge_old e prev o b b' : merge e prev o b = Ok b' -> b_meta_old b' = b_meta_old b.
  Proof.
    unfold merge. cbn [b_new]. set (k := keep_modes _ _ _). set (o1 := if k then o else into_mixed o). destruct (into_meta o1) as [md mt].
    set (s0 := Builder _ _ _ _).
    assert (E : b_meta_old (if k then s0 else into_mixed s0) = b_meta_old b).
    { destruct k; [reflexivity|]. unfold into_mixed, s0. cbn. destruct (b_new b); reflexivity. }
    set (s1 := if k then s0 else into_mixed s0) in *. clearbody s1.
    destruct (b_meta_new s1) as [g1|]; [|discriminate].
    destruct (b_new s1), md; try discriminate; try (intros H; apply add_all_old in H; rewrite H; exact E).
    destruct (occurs_update _ _ _ _); try discriminate. intros H; apply add_all_old in H; rewrite H; exact E.
  Qed.
  Lemma loop_old rec rest : forall prev b b', flat_loop rec prev rest b = Some (Ok b') -> b_meta_old b' = b_meta_old b.
  Proof.
    induction rest as [|e rest IH]; intros prev b b' H; cbn in H; [congruence|].
    assert (St : forall r, match r with Ok b1 => flat_loop rec (prev ++ [e]) rest b1 | r => Some r end = Some (Ok b') ->
               (forall b1, r = Ok b1 -> b_meta_old b1 = b_meta_old b) -> b_meta_old b' = b_meta_old b).
    { intros [b1| |] H1 H2; try discriminate. rewrite (IH _ _ _ H1). apply H2. reflexivity. }
    destruct (el_variant e) as [| |t []]; try (apply (St _ H); intros b1; apply add_element_old).
    destruct (rec t) as [[inner| |]|]; try discriminate. apply (St _ H). intros b1. apply merge_old.
  Qed.

  Lemma loop_inv rec rest : (forall t r, rec t = Some (Ok r) -> fspec t r) -> forall m prev b ol ol' b',
    linv m prev b ol -> rest_ok m ol rest ol' -> flat_loop rec prev rest b = Some (Ok b') -> linv m (prev ++ rest) b' ol'.
  Proof.
    intros HR. induction rest as [|e rest IH]; intros m prev b ol ol' b' Li R H; cbn in H.
    - injection H as <-. rewrite app_nil_r.
      assert (E : ol' = ol).
      { destruct m; cbn in R; auto.
        - destruct R as (l1 & l2 & -> & A & -> & _). inversion A; subst. rewrite app_nil_r. reflexivity.
        - destruct R as [[-> ->]|(l1 & l2 & -> & A & -> & _)]; [reflexivity|]. inversion A; subst. rewrite app_nil_r. reflexivity. }
      rewrite E. exact Li.
    - assert (St : forall r, match r with Ok b1 => flat_loop rec (prev ++ [e]) rest b1 | r => Some r end = Some (Ok b') ->
               (forall b1, r = Ok b1 -> exists ol1, linv m (prev ++ [e]) b1 ol1 /\ rest_ok m ol1 rest ol') -> linv m (prev ++ e :: rest) b' ol').
      { intros [b1| |] H1 H2; try discriminate. destruct (H2 _ eq_refl) as (ol1 & L1 & R1).
        pose proof (IH _ _ _ _ _ _ L1 R1 H1) as X. rewrite <- app_assoc in X. exact X. }
      destruct (el_variant e) as [| |t []] eqn:V;
        try (apply (St _ H); intros b1 X; eapply step_leaf; [exact Li|exact R| |exact X]; unfold is_group; rewrite V; reflexivity).
      destruct (rec t) as [[inner| |]|] eqn:Rt; try discriminate. apply (St _ H). intros b1 X.
      eapply step_group; [exact Li|exact R|unfold is_group; rewrite V; reflexivity|apply HR, Rt|exact X].
  Qed.

  Lemma loop_alts rec rest : (forall t r, rec t = Some (Ok r) -> fspec t r) -> forall prev b b',
    flat_loop rec prev rest b = Some (Ok b') -> exists l, alternatives ts rest l.
  Proof.
    intros HR. induction rest as [|e rest IH]; intros prev b b' H; cbn in H; [exists []; constructor|].
    assert (St : forall r, match r with Ok b1 => flat_loop rec (prev ++ [e]) rest b1 | r => Some r end = Some (Ok b') -> exists l, alternatives ts rest l).
    { intros [b1| |] H1; try discriminate. eapply IH, H1. }
    destruct (el_variant e) as [| |t []] eqn:V;
      try (destruct (St _ H) as (l & A); exists (el_ident e :: l); constructor; [unfold is_group; rewrite V; reflexivity|exact A]).
    destruct (rec t) as [[inner| |]|] eqn:Rt; try discriminate. destruct (St _ H) as (l & A).
    destruct (HR _ _ Rt) as (ty & m & g & L & G & _ & (la & Al) & _).
    assert (Ge : is_group e = Some t) by (unfold is_group; rewrite V; reflexivity).
    destruct m.
    - exists l. apply (alt_other ts e rest t l Ge); [|exact A]. intros ty' g' L' V'. rewrite L in L'. injection L' as <-. rewrite V' in G. discriminate.
    - assert (Vc : m_variant ty = VChoice g) by (destruct (m_variant ty); cbn in G; try discriminate; congruence).
      exists (la ++ l). exact (alt_choice ts e rest t ty g la l Ge L Vc Al A).
    - exists l. apply (alt_other ts e rest t l Ge); [|exact A]. intros ty' g' L' V'. rewrite L in L'. injection L' as <-. rewrite V' in G. discriminate.
    - exfalso. apply (group_mode _ _ _ G). exact I.
  Qed.

  Lemma linv_start m g ol0 : ~ is_mixed_mode m -> Forall leaf [] -> (ol0 = None \/ ol0 = Some []) -> linv m [] (builder_new m g) ol0.
  Proof.
    intros Nm _ O. split; cbn; auto; try contradiction.
    - destruct m; cbn; intros w H; [inversion H; constructor|destruct H as (? & [] & _)|inversion H; constructor|destruct H].
    - intros _ l ->. destruct O as [O|O]; congruence.
    - intros _ l _ w H. inversion H; constructor.
  Qed.

  Lemma exec_spec fuel : forall t b, flat_exec fuel ts t = Some (Ok b) -> fspec t b.
  Proof.
    induction fuel as [|fuel IH]; intros t b H; cbn in H; [discriminate|].
    destruct (lookup t ts) as [ty|] eqn:L; [|discriminate]. destruct (group_of (m_variant ty)) as [[m g]|] eqn:G; [|discriminate].
    exists ty, m, g. split; [exact L|]. split; [exact G|]. split; [apply (loop_old _ _ _ _ _ H)|]. split; [eapply loop_alts; [exact IH|exact H]|].
    intros ol (ol0 & O & R). eapply (loop_inv _ _ IH m [] (builder_new m g)); [|exact R|exact H].
    apply linv_start; [apply (group_mode _ _ _ G)|constructor|exact O].
  Qed.
End loop.

(** ** Acceptance depends only on the groups inside *)

Definition shape (ts : types) (t : tident) : option (option (gmode * group_meta)) :=
  option_map (fun ty => group_of (m_variant ty)) (lookup t ts).
Definition same_at (ts ts' : types) (t : tident) : Prop := shape ts t = shape ts' t.

Lemma same_shape ts ts' t ty : same_at ts ts' t -> lookup t ts = Some ty ->
  exists ty', lookup t ts' = Some ty' /\ group_of (m_variant ty') = group_of (m_variant ty).
Proof.
  unfold same_at, shape. intros E L. rewrite L in E. cbn in E. destruct (lookup t ts') as [ty'|]; [|discriminate].
  exists ty'. split; [reflexivity|]. cbn in E. congruence.
Qed.
Lemma shape_sequence v g : group_of v = Some (GSequence, g) -> v = VSequence g.
Proof. destruct v; cbn; try discriminate. congruence. Qed.
Lemma shape_choice v g : group_of v = Some (GChoice, g) -> v = VChoice g.
Proof. destruct v; cbn; try discriminate. congruence. Qed.
Lemma shape_all v g : group_of v = Some (GAll, g) -> v = VAll g.
Proof. destruct v; cbn; try discriminate. congruence. Qed.

Lemma accepts_frame ts ts' : forall c w, accepts ts c w -> (forall t, inside ts c t -> same_at ts ts' t) -> accepts ts' c w
with part_frame ts ts' : forall e w, part ts e w -> (forall t, is_group e = Some t -> forall t', inside ts t t' -> same_at ts ts' t') -> part ts' e w.
Proof.
  - intros c w [i ty g w' L V H|i ty g e w' L V I H|i ty g w' L V H] Sm.
    + assert (Sp : forall e, In e (gr_elements g) -> forall t, is_group e = Some t -> forall t', inside ts t t' -> same_at ts ts' t').
      { intros e I t G t' R. apply Sm. apply (in_part ts i ty GSequence g e t t' L); [rewrite V; reflexivity|exact I|exact G|exact R]. }
      destruct (same_shape _ _ _ _ (Sm _ (in_self _ _)) L) as (ty' & L' & V').
      apply (acc_sequence ts' i ty' g w' L'); [apply shape_sequence; rewrite V', V; reflexivity|]. clear L V L' V' Sm.
      refine ((fix go (es : list element_meta) (w : list child) (Q : in_order (part ts) es w) {struct Q} :
         (forall e, In e es -> forall t, is_group e = Some t -> forall t', inside ts t t' -> same_at ts ts' t') -> in_order (part ts') es w := _) _ _ H Sp).
      destruct Q as [|e es0 v u Pv R]; intros Sq; constructor.
      * apply (part_frame ts ts' e v Pv). apply Sq. left. reflexivity.
      * apply (go es0 u R). intros e' I. apply Sq. right. exact I.
    + destruct (same_shape _ _ _ _ (Sm _ (in_self _ _)) L) as (ty' & L' & V').
      apply (acc_choice ts' i ty' g e w' L'); [apply shape_choice; rewrite V', V; reflexivity|exact I|]. apply (part_frame ts ts' e w' H).
      intros t G t' R. apply Sm. apply (in_part ts i ty GChoice g e t t' L); [rewrite V; reflexivity|exact I|exact G|exact R].
    + assert (Sp : forall e, In e (gr_elements g) -> forall t, is_group e = Some t -> forall t', inside ts t t' -> same_at ts ts' t').
      { intros e I t G t' R. apply Sm. apply (in_part ts i ty GAll g e t t' L); [rewrite V; reflexivity|exact I|exact G|exact R]. }
      destruct (same_shape _ _ _ _ (Sm _ (in_self _ _)) L) as (ty' & L' & V').
      apply (acc_all ts' i ty' g w' L'); [apply shape_all; rewrite V', V; reflexivity|]. clear L V L' V' Sm.
      refine ((fix go (es : list element_meta) (w : list child) (Q : any_order (part ts) es w) {struct Q} :
         (forall e, In e es -> forall t, is_group e = Some t -> forall t', inside ts t t' -> same_at ts ts' t') -> any_order (part ts') es w := _) _ _ H Sp).
      destruct Q as [|e es0 u v w Pv R M]; intros Sq; [constructor|].
      apply (ao_cons (part ts') e es0 u v w); [|apply (go es0 v R); intros e' I; apply Sq; right; exact I|exact M].
      apply (part_frame ts ts' e u Pv). apply Sq. left. reflexivity.
  - intros e w [e0 t n w' G W T|e0 n G W] Sm.
    + apply (part_group ts' e0 t n w' G W). pose proof (Sm t G) as St. clear Sm.
      refine ((fix go (n : nat) (w : list child) (Q : times (accepts ts t) n w) {struct Q} : times (accepts ts' t) n w := _) _ _ T).
      destruct Q as [|n1 v u A R]; constructor; [apply (accepts_frame ts ts' t v A St)|apply (go n1 u R)].
    + apply (part_child ts' e0 n G W).
Qed.

Lemma inside_trans ts c t t' : inside ts c t -> inside ts t t' -> inside ts c t'.
Proof. induction 1; auto. intros R. eapply in_part; eauto. Qed.
Lemma inside_frame ts ts' c t : inside ts c t -> (forall u, inside ts c u -> same_at ts ts' u) -> inside ts' c t.
Proof.
  induction 1 as [c|c ty m g e t t' L G I Ge R IH]; intros Sm; [constructor|].
  destruct (same_shape _ _ _ _ (Sm _ (in_self _ _)) L) as (ty' & L' & V').
  apply (in_part ts' c ty' m g e t t' L'); [congruence|exact I|exact Ge|]. apply IH. intros u U. apply Sm.
  apply (in_part ts c ty m g e t u L G I Ge U).
Qed.

Lemma loop_frame rec rec' rest : (forall e t, In e rest -> is_group e = Some t -> rec' t = rec t) -> forall prev b,
  flat_loop rec' prev rest b = flat_loop rec prev rest b.
Proof.
  induction rest as [|e rest IH]; intros Sm prev b; cbn [flat_loop]; [reflexivity|].
  assert (I : forall x t, In x rest -> is_group x = Some t -> rec' t = rec t) by (intros x t X; apply Sm; right; exact X).
  destruct (el_variant e) as [| |t []] eqn:V; try (destruct (add_element true e b); [apply IH, I|reflexivity|reflexivity]).
  rewrite (Sm e t (or_introl eq_refl)) by (unfold is_group; rewrite V; reflexivity).
  destruct (rec t) as [[inner| |]|]; try reflexivity. destruct (merge e prev inner b); [apply IH, I|reflexivity|reflexivity].
Qed.
Lemma exec_frame ts ts' fuel : forall c, (forall t, inside ts c t -> same_at ts ts' t) -> flat_exec fuel ts' c = flat_exec fuel ts c.
Proof.
  induction fuel as [|fuel IH]; intros c Sm; cbn; [reflexivity|].
  pose proof (Sm c (in_self _ _)) as Sc. unfold same_at, shape in Sc.
  destruct (lookup c ts) as [ty|] eqn:L, (lookup c ts') as [ty'|]; try discriminate; [|reflexivity]. cbn in Sc.
  injection Sc as Sc. rewrite <- Sc. destruct (group_of (m_variant ty)) as [[m g]|] eqn:G; [|reflexivity].
  apply loop_frame. intros e t I Ge. apply IH. intros u U. apply Sm. apply (in_part ts c ty m g e t u L G I Ge U).
Qed.

(** ** One complex type *)

Lemma lookup_entry i ty ts j : lookup j (set_entry i ty ts) = if tident_eq_dec i j then option_map (fun _ => ty) (lookup j ts) else lookup j ts.
Proof.
  unfold set_entry. induction ts as [|[k t] ts IH]; cbn; [destruct (tident_eq_dec i j); reflexivity|].
  destruct (tident_eq_dec i k) as [->|N]; cbn; destruct (tident_eq_dec j k) as [->|N']; cbn.
  - destruct (tident_eq_dec k k); [reflexivity|congruence].
  - exact IH.
  - destruct (tident_eq_dec i k); [congruence|reflexivity].
  - exact IH.
Qed.

Lemma leaf_accepts ts c ty v es m g : lookup c ts = Some ty -> m_variant ty = v -> group_of v = Some (m, g) -> gr_elements g = es -> Forall leaf es ->
  forall w, match m with GSequence => in_order leafL es w | GAll => any_order leafL es w | _ => exists e, In e es /\ leafL e w end -> accepts ts c w.
Proof.
  intros L V G Es Lf w H. destruct v; cbn in G; try discriminate; injection G as <- <-.
  - apply (acc_all ts c ty _ w L V). rewrite Es. clear -Lf H. induction H; [constructor|]. inversion Lf; subst.
    econstructor; [apply part_leaf; eassumption|auto|eassumption].
  - destruct H as (e & I & H). apply (acc_choice ts c ty _ e w L V); [rewrite Es; exact I|]. apply part_leaf; [|exact H].
    rewrite Forall_forall in Lf. apply Lf, I.
  - apply (acc_sequence ts c ty _ w L V). rewrite Es. clear -Lf H. induction H; [constructor|]. inversion Lf; subst.
    constructor; [apply part_leaf; assumption|auto].
Qed.

Lemma allows_one a n : allows (max_times a (Bounded 1)) n <-> allows a n.
Proof. destruct a; cbn; [tauto|]. rewrite Nat.mul_1_r. tauto. Qed.

(** What a pass does to one complex type. *)
Definition one_result (ts : types) (o o' : optimizer) (i c : tident) (x : complex_meta) (good : Prop) : Prop :=
  (forall j, j <> i -> j <> c -> lookup j (o_types o') = lookup j (o_types o)) /\
  shape (o_types o') i = shape (o_types o) i /\
  (forall t, inside (o_types o') c t -> inside ts c t) /\
  (good -> forall w, complex_accepts ts x w -> type_accepts (o_types o') i w) /\
  (exists ty' x', lookup i (o_types o') = Some ty' /\ m_variant ty' = VComplex x' /\ cx_content x' = Some c) /\
  exists tc p, lookup c ts = Some tc /\ group_of (m_variant tc) = Some p.

Section one_type.
  Variables (ts : types) (fuel : nat) (o o' : optimizer) (i c : tident) (ty : mtype) (x : complex_meta).
  Hypothesis NE : no_empty_choice ts.
  Hypothesis DA : distinct_alternatives ts.
  Hypothesis Li : lookup i (o_types o) = Some ty.
  Hypothesis Vi : m_variant ty = VComplex x.
  Hypothesis Ci : cx_content x = Some c.
  Hypothesis Sm : forall t, inside ts c t -> same_at ts (o_types o) t.
  Hypothesis Ok' : flatten_complex_type fuel o i = Some (Ok o').

  Lemma one_type : one_result ts o o' i c x (order_kept ts c).
  Proof.
    unfold one_result. unfold flatten_complex_type in Ok'. rewrite Li, Vi, Ci in Ok'. rewrite (exec_frame ts _ fuel c Sm) in Ok'.
    destruct (flat_exec fuel ts c) as [[b| |]|] eqn:Ex; try discriminate.
    pose proof (exec_spec ts NE DA fuel c b Ex) as (tc & m & g & Lc & Gc & Mo & (la & Al) & Fs).
    pose proof (group_mode _ _ _ Gc) as Nm. clear Mo.
    destruct (same_shape _ _ _ _ (Sm _ (in_self _ _)) Lc) as (tc' & Lc' & Gc').
    assert (Nic : i <> c). { intros ->. rewrite Lc' in Li. injection Li as ->. rewrite Vi, Gc in Gc'. discriminate. }
    destruct (into_variant b) as [[occ v]|] eqn:Iv.
    2:{ injection Ok' as <-. split; [auto|]. split; [reflexivity|]. split; [|split; [|split; [exists ty, x; auto|exists tc, (m, g); auto]]].
        - intros t I. apply (inside_frame (o_types o) ts c t I). clear -Sm. intros u U.
          assert (X : inside ts c u). { clear -Sm U. revert Sm. induction U as [c|c ty m g e t t' L G I Ge R IH]; intros Sm; [constructor|].
            destruct (same_shape _ _ _ _ (eq_sym (Sm _ (in_self _ _)) : same_at (o_types o) ts c) L) as (ty' & L' & V').
            apply (in_part ts c ty' m g e t t' L'); [congruence|exact I|exact Ge|]. apply IH. intros u U. apply Sm.
            apply (in_part ts c ty' m g e t u L'); [congruence|exact I|exact Ge|exact U]. }
          symmetry. apply Sm, X.
        - intros _ w (c' & n & E & W & T). exists ty, x. split; [exact Li|]. split; [exact Vi|]. exists c', n. split; [exact E|]. split; [exact W|].
          rewrite Ci in E. injection E as <-. eapply times_impl; [|exact T]. intros u U. apply (accepts_frame _ _ _ _ U Sm). }
    unfold into_variant in Iv. destruct (b_meta_new b) as [g1|] eqn:Mn; [|discriminate].
    assert (Gx : get_variant (set_entry c (mtype_new v) (o_types o)) i = Some (VComplex x)).
    { unfold get_variant. rewrite lookup_entry. destruct (tident_eq_dec c i); [congruence|]. rewrite Li. cbn. rewrite Vi. reflexivity. }
    rewrite Gx in Ok'. injection Ok' as <-. cbn [o_types with_types].
    set (x1 := with_bounds (cx_min x * fst occ) (max_times (cx_max x) (snd occ)) x).
    set (t1 := set_type i (VComplex x1) (set_entry c (mtype_new v) (o_types o))).
    assert (Lj : forall j, j <> i -> j <> c -> lookup j t1 = lookup j (o_types o)).
    { intros j A B. unfold t1. rewrite lookup_set, lookup_entry. destruct (tident_eq_dec i j); [congruence|]. destruct (tident_eq_dec c j); congruence. }
    assert (L1i : lookup i t1 = Some (set_variant ty (VComplex x1))).
    { unfold t1. rewrite lookup_set, lookup_entry. destruct (tident_eq_dec i i); [|congruence]. destruct (tident_eq_dec c i); [congruence|].
      rewrite Li. reflexivity. }
    assert (L1c : lookup c t1 = Some (mtype_new v)).
    { unfold t1. rewrite lookup_set, lookup_entry. destruct (tident_eq_dec i c); [congruence|]. destruct (tident_eq_dec c c); [|congruence].
      rewrite Lc'. reflexivity. }
    assert (O0 : exists oli, okol ts m (gr_elements g) oli).
    { destruct m as [| | |]; [exists None, None; cbn; auto| |exists None, None; cbn; auto|exfalso; apply Nm; exact I].
      exists (Some la), (Some []). split; [auto|]. exists [], la. split; [reflexivity|]. split; [exact Al|]. split; [reflexivity|].
      exact (DA _ _ _ _ Lc (shape_choice _ _ Gc) Al). }
    destruct O0 as (oli & O0). pose proof (Fs _ O0) as Fi.
    assert (Eg : els_of b (gr_elements g) = gr_elements g1) by (unfold els_of; rewrite Mn; reflexivity).
    pose proof (li_leaf _ _ _ _ _ Fi) as Lf. rewrite Eg in Lf.
    assert (Gv : exists m1, group_of v = Some (m1, g1)).
    { destruct (b_new b); injection Iv as <- <-; cbn; eauto. }
    destruct Gv as (m1 & Gv).
    split; [exact Lj|]. split; [|split; [|split; [|split; [exists (set_variant ty (VComplex x1)), x1; auto|exists tc, (m, g); auto]]]].
    - unfold shape. rewrite L1i, Li. cbn. rewrite Vi. reflexivity.
    - intros t I. inversion I as [|? ty2 m2 g2 e t2 ? L2 G2 I2 Ge]; subst; [constructor|]. exfalso.
      rewrite L1c in L2. injection L2 as <-. cbn in G2. rewrite Gv in G2. injection G2 as <- <-.
      rewrite Forall_forall in Lf. apply Lf in I2. unfold leaf in I2. congruence.
    - intros Ok w (c' & n & E & W & T). rewrite Ci in E. injection E as <-.
      exists (set_variant ty (VComplex x1)), x1. split; [exact L1i|]. split; [reflexivity|]. exists c.
      assert (Keep : b_new b = m -> (forall u, accepts ts c u -> accepts t1 c u) -> exists n, cx_content x1 = Some c /\ within (cx_min x1) (cx_max x1) n /\ times (accepts t1 c) n w).
      { intros Nb Acc. exists n. split; [exact Ci|]. split; [|eapply times_impl; [exact Acc|exact T]].
        assert (Eo : occ = (1, Bounded 1)) by (rewrite Nb in Iv; destruct m; try (injection Iv as <- <-; reflexivity); exfalso; apply Nm; exact I).
        subst occ. cbn. rewrite Nat.mul_1_r. destruct W. split; [assumption|]. apply allows_one. assumption. }
      destruct (li_new _ _ _ _ _ Fi) as [Nb|Nb].
      + apply (Keep Nb). intros u U. pose proof (accepts_lang _ _ _ _ _ _ Lc Gc U) as Lu.
        apply (leaf_accepts t1 c _ v (gr_elements g1) m1 g1 L1c eq_refl Gv eq_refl Lf).
        pose proof (li_lang _ _ _ _ _ Fi u Lu) as Lx. rewrite Eg, Nb in Lx.
        rewrite Nb in Iv. destruct m as [| | |]; injection Iv as <- <-; cbn in Gv; injection Gv as <-; [exact Lx|exact Lx| |exfalso; apply Nm; exact I].
        destruct Ok as [(names & Ne & ND)|No].
        * inversion Ne as [? ty2 m2 g2 ? L2 V2 A3]; subst. rewrite Lc in L2. injection L2 as <-. rewrite Gc in V2. injection V2 as <- E2.
          assert (Fc : linv ts GSequence (gr_elements g) b (Some names)).
          { apply Fs. exists (Some []). split; [auto|]. right. exists [], names. split; [reflexivity|]. rewrite E2 in *. auto. }
          pose proof (li_seq _ _ _ _ _ Fc Nb names eq_refl u Lu) as Z. rewrite Eg in Z. exact Z.
        * exfalso. apply No. apply (os_group ts c tc g Lc (shape_sequence _ _ Gc)). intros e t I G. apply (li_seqs _ _ _ _ _ Fi Nb e t I G).
      + destruct (b_new b) as [| | |mn mx] eqn:Nb'; try (destruct Nb). clear Keep.
        injection Iv as <- <-. cbn in Gv. injection Gv as <-. exists (length w). split; [exact Ci|].
        assert (Hb : forall u, accepts ts c u -> Forall (fun a => In a (map child_of (gr_elements g1))) u /\ within mn mx (length u)).
        { intros u U. pose proof (li_lang _ _ _ _ _ Fi u (accepts_lang _ _ _ _ _ _ Lc Gc U)) as Lx. rewrite Eg, Nb' in Lx. exact Lx. }
        destruct (times_bounds _ _ _ _ _ _ _ _ Hb T W) as [F [W1 W2]]. split.
        * split; cbn; [lia|]. destruct (cx_max x), mx; cbn in *; auto. lia.
        * apply times_one. eapply Forall_impl; [|exact F]. intros a I. apply in_map_iff in I. destruct I as (e & <- & I).
          apply (leaf_accepts t1 c _ _ (gr_elements g1) GChoice g1 L1c eq_refl eq_refl eq_refl Lf). exists e. split; [exact I|].
          apply unit_word. pose proof (li_unit _ _ _ _ _ Fi) as U. rewrite Eg, Nb' in U. specialize (U Logic.I). rewrite Forall_forall in U. apply U, I.
  Qed.
End one_type.

(** ** The whole pass *)

Section pass.
  Variable ts : types.
  Hypothesis PC : private_contents ts.
  Variable good : tident -> tident -> Prop.

  Definition todo (o : optimizer) (j : tident) : Prop :=
    lookup j (o_types o) = lookup j ts /\ forall d, content_of ts j d -> forall t, inside ts d t -> same_at ts (o_types o) t.
  Definition fine (o : optimizer) (j : tident) : Prop :=
    forall d, content_of ts j d -> content_of (o_types o) j d /\ (forall t, inside (o_types o) d t -> inside ts d t) /\
      (good j d -> forall w, type_accepts ts j w -> type_accepts (o_types o) j w).

  Lemma todo_fine o j : todo o j -> fine o j.
  Proof.
    intros [L Sm] d C. pose proof (Sm d C) as Sd. destruct C as (ty & x & Lj & V & Cx).
    split; [exists ty, x; rewrite L; auto|]. split.
    - intros t I. clear -I Sd. revert Sd. induction I as [c|c ty m g e t t' L G I Ge R IH]; intros Sm; [constructor|].
      destruct (same_shape _ _ _ _ (eq_sym (Sm _ (in_self _ _)) : same_at (o_types o) ts c) L) as (ty' & L' & V').
      apply (in_part ts c ty' m g e t t' L'); [congruence|exact I|exact Ge|]. apply IH. intros u U. apply Sm.
      apply (in_part ts c ty' m g e t u L'); [congruence|exact I|exact Ge|exact U].
    - intros _ w (ty2 & x2 & L2 & V2 & c & n & E & W & T). rewrite Lj in L2. injection L2 as <-. rewrite V in V2. injection V2 as <-.
      rewrite Cx in E. injection E as <-. exists ty, x. split; [congruence|]. split; [exact V|]. exists d, n. split; [exact Cx|]. split; [exact W|].
      eapply times_impl; [|exact T]. intros u U. apply (accepts_frame _ _ _ _ U Sd).
  Qed.

  Lemma pass_step o i c x ty o' : content_of ts i c -> lookup i ts = Some ty -> m_variant ty = VComplex x ->
    (todo o i -> one_result ts o o' i c x (good i c)) -> todo o i ->
    fine o' i /\ forall j d, content_of ts j d -> j <> i -> (todo o j -> todo o' j) /\ (fine o j -> fine o' j).
  Proof.
    intros C Li V F T. destruct (F T) as (A1 & A2 & A3 & A5 & A6 & tc & p & A7 & A8).
    destruct T as [L Sm].
    assert (Same : forall t d j, content_of ts j d -> j <> i -> inside ts d t -> same_at (o_types o) (o_types o') t).
    { intros t d j D Nj I. destruct (tident_eq_dec t i) as [->|Ni]; [symmetry; exact A2|].
      destruct (tident_eq_dec t c) as [->|Nc]; [exfalso; apply Nj; symmetry; exact (PC _ _ _ _ C D I)|].
      unfold same_at, shape. rewrite (A1 t Ni Nc). reflexivity. }
    split.
    - intros d D. assert (d = c). { destruct D as (? & ? & X & Y & Z), C as (? & ? & X2 & Y2 & Z2). congruence. } subst d.
      split; [destruct A6 as (ty' & x' & X); exists ty', x'; exact X|]. split; [exact A3|]. intros Ok w (ty2 & x2 & L2 & V2 & Ac).
      rewrite Li in L2. injection L2 as <-. rewrite V in V2. injection V2 as <-. apply (A5 Ok w Ac).
    - intros j d D Nj.
      assert (Njc : j <> c). { intros ->. destruct D as (? & ? & X & Y & _). rewrite A7 in X. injection X as <-. rewrite Y in A8. discriminate. }
      split.
      + intros [Lj Sj]. split; [rewrite A1; assumption|]. intros d' D' t I. pose proof (Sj d' D' t I) as X. unfold same_at in *.
        rewrite X. apply (Same t d' j D' Nj I).
      + intros Fj d' D'. destruct (Fj d' D') as (F1 & F2 & F3).
        assert (Sd : forall t, inside (o_types o) d' t -> same_at (o_types o) (o_types o') t) by (intros t I; apply (Same t d' j D' Nj), F2, I).
        split; [destruct F1 as (ty1 & x1 & X & Y); exists ty1, x1; rewrite A1; auto|]. split.
        * intros t I. apply F2. clear -I Sd. revert Sd. induction I as [c|c ty m g e t t' L G I Ge R IH]; intros Sm; [constructor|].
          destruct (same_shape _ _ _ _ (eq_sym (Sm _ (in_self _ _)) : same_at (o_types o') (o_types o) c) L) as (ty' & L' & V').
          apply (in_part (o_types o) c ty' m g e t t' L'); [congruence|exact I|exact Ge|]. apply IH. intros u U. apply Sm.
          apply (in_part (o_types o) c ty' m g e t u L'); [congruence|exact I|exact Ge|exact U].
        * intros Ok w W. destruct (F3 Ok w W) as (ty2 & x2 & L2 & V2 & c2 & n & E & Wn & T).
          exists ty2, x2. split; [rewrite A1; assumption|]. split; [exact V2|]. exists c2, n. split; [exact E|]. split; [exact Wn|].
          assert (c2 = d') by (destruct F1 as (? & ? & X & Y & Z); congruence). subst c2.
          eapply times_impl; [|exact T]. intros u U. apply (accepts_frame _ _ _ _ U Sd).
  Qed.


  Variable step : optimizer -> tident -> optimizer -> Prop.
  Hypothesis step_ok : forall o i o' c x ty, content_of ts i c -> lookup i ts = Some ty -> m_variant ty = VComplex x -> step o i o' ->
    o' = o \/ (todo o i -> one_result ts o o' i c x (good i c)).
  Inductive steps : list tident -> optimizer -> optimizer -> Prop :=
  | steps_nil o : steps [] o o
  | steps_cons i ids o o1 o2 : step o i o1 -> steps ids o1 o2 -> steps (i :: ids) o o2.

  Lemma pass_fold ids : NoDup ids -> (forall i, In i ids -> exists c, content_of ts i c) -> forall o o',
    (forall j d, content_of ts j d -> In j ids -> todo o j) -> (forall j d, content_of ts j d -> fine o j) ->
    steps ids o o' -> forall j d, content_of ts j d -> fine o' j.
  Proof.
    induction ids as [|i ids IH]; intros Nd Ci o o' Td Fn H; inversion H as [|? ? ? o1 ? F H']; subst; [exact Fn|].
    inversion Nd as [|? ? Ni Nd']; subst.
    destruct (Ci i (or_introl eq_refl)) as (c & C). pose proof C as C'. destruct C' as (ty & x & Li & V & Cx).
    destruct (step_ok o i o1 c x ty C Li V F) as [->|R].
    - apply (IH Nd' (fun k K => Ci k (or_intror K)) o o'); [|exact Fn|exact H']. intros j d D I. apply (Td j d D). right. exact I.
    - destruct (pass_step o i c x ty o1 C Li V R (Td i c C (or_introl eq_refl))) as (Fi & Ot).
      apply (IH Nd' (fun k K => Ci k (or_intror K)) o1 o'); [| |exact H'].
      + intros j d D I. apply (Ot j d D); [intros ->; contradiction|]. apply (Td j d D). right. exact I.
      + intros j d D. destruct (tident_eq_dec j i) as [->|Nj]; [exact Fi|]. apply (Ot j d D Nj). exact (Fn j d D).
  Qed.
End pass.

Lemma complex_idents_in p ts i : NoDup (map fst ts) -> In i (complex_idents p ts) -> exists ty x, lookup i ts = Some ty /\ m_variant ty = VComplex x /\ p x = true.
Proof.
  intros ND H. apply in_map_iff in H. destruct H as ([j ty] & <- & H). apply filter_In in H. destruct H as [I F]. cbn in *.
  destruct (m_variant ty) as [| | | | | | | | |x|] eqn:V; try discriminate. exists ty, x. split; [apply lookup_unique; assumption|]. auto.
Qed.
Lemma nodup_filter {A B} (f : A -> B) p l : NoDup (map f l) -> NoDup (map f (filter p l)).
Proof.
  induction l as [|a l IH]; cbn; intros H; [constructor|]. inversion H; subst. destruct (p a); cbn; [|auto]. constructor; [|auto].
  intros I. apply H2. apply in_map_iff in I. destruct I as (b & E & I). apply filter_In in I. apply in_map_iff. exists b. tauto.
Qed.
Lemma start_todo (o : optimizer) j : todo (o_types o) o j.
Proof. split; [reflexivity|]. intros. reflexivity. Qed.
Lemma has_content p ts x : (p = has_group_content ts \/ p = has_choice_content ts) -> p x = true -> exists c, cx_content x = Some c.
Proof. unfold has_group_content, has_choice_content, content_variant. intros [->| ->]; destruct (cx_content x); try discriminate; eauto. Qed.

Definition flat_step (fuel : nat) (o : optimizer) (i : tident) (o' : optimizer) : Prop :=
  flatten_complex_type fuel o i = Some (Ok o') \/ o' = o /\ exists r, flatten_complex_type fuel o i = Some (Err r).
Definition pass_one (fuel : nat) (acc : option (outcome flat_error optimizer)) (i : tident) : option (outcome flat_error optimizer) :=
  match acc with
  | Some (Ok o) => match flatten_complex_type fuel o i with Some (Err _) => Some (Ok o) | r => r end
  | r => r
  end.
Lemma pass_stuck fuel ids r : (forall o, r <> Some (Ok o)) -> fold_left (pass_one fuel) ids r = r.
Proof. intros H. induction ids as [|i ids IH]; cbn; [reflexivity|]. destruct r as [[o| |]|]; cbn; try exact IH. exfalso. eapply H. reflexivity. Qed.
Lemma pass_steps fuel ids : forall o o', fold_left (pass_one fuel) ids (Some (Ok o)) = Some (Ok o') -> steps (flat_step fuel) ids o o'.
Proof.
  induction ids as [|i ids IH]; intros o o' H; cbn [fold_left] in H; [injection H as <-; constructor|].
  cbn [pass_one] in H. destruct (flatten_complex_type fuel o i) as [[o1|r|]|] eqn:F.
  - econstructor; [left; exact F|apply IH, H].
  - econstructor; [right; eauto|apply IH, H].
  - rewrite pass_stuck in H by discriminate. discriminate.
  - rewrite pass_stuck in H by discriminate. discriminate.
Qed.

Lemma flatten_pass fuel o o' : NoDup (map fst (o_types o)) -> private_contents (o_types o) -> no_empty_choice (o_types o) ->
  distinct_alternatives (o_types o) -> flatten_complex_types fuel o = Some (Ok o') ->
  forall i c w, content_of (o_types o) i c -> order_kept (o_types o) c -> type_accepts (o_types o) i w -> type_accepts (o_types o') i w.
Proof.
  intros ND PC NE DA H i c w C Ok W.
  pose proof (pass_steps fuel _ o o' H : steps _ (complex_idents (has_group_content (o_types o)) (o_types o)) o o') as St.
  refine (proj2 (proj2 (pass_fold (o_types o) PC (fun _ d => order_kept (o_types o) d) (flat_step fuel) _ _ _ _ o o' _ _ St i c C c C)) Ok w W).
  - intros o1 j o2 d x ty D L V [F|[-> _]]; [right|left; reflexivity]. intros [Lj Sj].
    assert (Cx : cx_content x = Some d) by (destruct D as (? & ? & X & Y & Z); congruence).
    rewrite <- Lj in L. exact (one_type (o_types o) fuel o1 o2 j d ty x NE DA L V Cx (Sj d D) F).
  - apply nodup_filter, ND.
  - intros j I. destruct (complex_idents_in _ _ _ ND I) as (ty & x & L & V & P).
    destruct (has_content _ (o_types o) x (or_introl eq_refl) P) as (d & D). exists d, ty, x. auto.
  - intros. apply start_todo.
  - intros. apply todo_fine, start_todo.
Qed.

(** ** Neither panics nor, with finite groups, endless recursion *)

Lemma add_no_panic u e b : ~ is_mixed_mode (b_old b) -> add_element u e b <> Panic /\ forall b', add_element u e b = Ok b' -> b_old b' = b_old b.
Proof.
  intros N. unfold add_element. destruct (b_meta_new b) as [g|]; [|split; [discriminate|congruence]].
  assert (O : forall o mn mx, exists r, occurs_update (b_old b) o mn mx = Ok r) by (intros; destruct (b_old b); cbn; eauto; exfalso; apply N; exact I).
  destruct (find_element _ _) as [[[l1 x] l2]|].
  - destruct (same_variant _ _), u; try (split; [discriminate|congruence]). destruct (b_new b); try (split; [discriminate|intros ? [= <-]; reflexivity]).
    destruct (O (mn, mx) (el_min e) (el_max e)) as (r & ->). split; [discriminate|intros ? [= <-]; reflexivity].
  - destruct u; [|split; [discriminate|intros ? [= <-]; reflexivity]]. destruct (b_new b); try (split; [discriminate|intros ? [= <-]; reflexivity]).
    destruct (O (mn, mx) (el_min e) (el_max e)) as (r & ->). split; [discriminate|intros ? [= <-]; reflexivity].
Qed.
Lemma add_all_no_panic u l : forall b, ~ is_mixed_mode (b_old b) -> add_all u l b <> Panic /\ forall b', add_all u l b = Ok b' -> b_old b' = b_old b.
Proof.
  induction l as [|e l IH]; cbn; intros b N; [split; [discriminate|congruence]|]. destruct (add_no_panic u e b N) as [A B].
  destruct (add_element u e b) as [b1| |]; [|split; discriminate|contradiction]. specialize (B _ eq_refl).
  destruct (IH b1) as [C D]; [congruence|]. split; [exact C|]. intros b' H. rewrite (D _ H). exact B.
Qed.
Lemma into_mixed_mode b : is_mixed_mode (b_new (into_mixed b)) /\ b_old (into_mixed b) = b_old b /\ exists g, b_meta_new (into_mixed b) = Some g.
Proof. unfold into_mixed. destruct (b_new b); cbn; eauto. Qed.
Lemma merge_no_panic e prev o b : ~ is_mixed_mode (b_old b) -> merge e prev o b <> Panic /\ forall b', merge e prev o b = Ok b' -> b_old b' = b_old b.
Proof.
  intros N. unfold merge. cbn [b_new]. destruct (keep_modes e (b_new b) (b_new o)) eqn:K.
  - destruct (keep_inv _ _ _ K) as (Kn & Km & _). unfold into_meta. cbn [b_meta_new b_new b_old b_meta_old]. rewrite <- Kn.
    destruct (b_new b); try (exfalso; apply Km; exact I); match goal with |- add_all ?u ?l ?b' <> _ /\ _ => exact (add_all_no_panic u l b' N) end.
  - set (s0 := Builder _ _ _ _). destruct (into_mixed_mode s0) as (A & B & g & C). destruct (into_mixed_mode o) as (D & _).
    unfold into_meta. rewrite C. destruct (b_new (into_mixed s0)); try (destruct A). destruct (b_new (into_mixed o)); try (destruct D).
    rewrite B. cbn [b_old s0].
    assert (O : forall o mn mx, exists r, occurs_update (b_old b) o mn mx = Ok r) by (intros; destruct (b_old b); cbn; eauto; exfalso; apply N; exact I).
    destruct (O (mn, mx) (mn0 * el_min e) (max_times mx0 (el_max e))) as (r & ->). match goal with |- add_all ?u ?l ?b' <> _ /\ _ => exact (add_all_no_panic u l b' N) end.
Qed.
Lemma loop_no_panic rec rest : (forall t, rec t <> Some Panic) -> forall prev b, ~ is_mixed_mode (b_old b) -> flat_loop rec prev rest b <> Some Panic.
Proof.
  intros HR. induction rest as [|e rest IH]; intros prev b N; cbn [flat_loop]; [discriminate|].
  assert (St : forall r, r <> Panic /\ (forall b', r = Ok b' -> b_old b' = b_old b) ->
     match r with Ok b1 => flat_loop rec (prev ++ [e]) rest b1 | r => Some r end <> Some Panic).
  { intros [b1| |] [A B]; [|discriminate|contradiction]. apply IH. rewrite (B _ eq_refl). exact N. }
  destruct (el_variant e) as [| |t []]; try (apply St, add_no_panic, N).
  pose proof (HR t). destruct (rec t) as [[inner| |]|]; try discriminate; [|contradiction]. apply St, merge_no_panic, N.
Qed.
Lemma exec_no_panic fuel : forall ts t, flat_exec fuel ts t <> Some Panic.
Proof.
  induction fuel as [|fuel IH]; intros ts t; cbn [flat_exec]; [discriminate|]. destruct (lookup t ts) as [ty|]; [|discriminate].
  destruct (group_of (m_variant ty)) as [[m g]|] eqn:G; [|discriminate]. apply loop_no_panic; [apply IH|]. apply (group_mode _ _ _ G).
Qed.
Lemma flatten_no_panic fuel o i : flatten_complex_type fuel o i <> Some Panic.
Proof.
  unfold flatten_complex_type. destruct (lookup i (o_types o)) as [ty|]; [|discriminate]. destruct (m_variant ty); try discriminate.
  destruct (cx_content _) as [c|]; [|discriminate]. pose proof (exec_no_panic fuel (o_types o) c) as X.
  destruct (flat_exec fuel (o_types o) c) as [[b| |]|]; try discriminate; [|contradiction]. destruct (into_variant b) as [[occ v]|]; discriminate.
Qed.

Lemma loop_ends rec rest : (forall e t, In e rest -> is_group e = Some t -> rec t <> None) -> forall prev b, flat_loop rec prev rest b <> None.
Proof.
  induction rest as [|e rest IH]; intros HR prev b; cbn [flat_loop]; [discriminate|].
  assert (St : forall r, match r with Ok b1 => flat_loop rec (prev ++ [e]) rest b1 | r => Some r end <> None).
  { intros [b1| |]; try discriminate. apply IH. intros x t I. apply HR. right. exact I. }
  destruct (el_variant e) as [| |t []] eqn:V; try apply St.
  pose proof (HR e t (or_introl eq_refl)) as X. unfold is_group in X. rewrite V in X. specialize (X eq_refl).
  destruct (rec t) as [[inner| |]|]; try discriminate; [|contradiction]. apply St.
Qed.
Lemma exec_ends ts c : finite_group ts c -> exists f0, forall fuel, f0 <= fuel -> flat_exec fuel ts c <> None.
Proof.
  induction 1 as [c _ IH]. destruct (lookup c ts) as [ty|] eqn:L.
  - destruct (group_of (m_variant ty)) as [[m g]|] eqn:G.
    + assert (B : forall es, incl es (gr_elements g) -> exists f0, forall fuel, f0 <= fuel -> forall e t, In e es -> is_group e = Some t -> flat_exec fuel ts t <> None).
      { induction es as [|e es IHe]; intros I; [exists 0; intros fuel _ e t []|]. destruct IHe as (f1 & F1); [intros x X; apply I; right; exact X|].
        destruct (is_group e) as [t|] eqn:Ge.
        - destruct (IH ty m g e t eq_refl G (I e (or_introl eq_refl)) Ge) as (f2 & F2). exists (f1 + f2). intros fuel Hf x t' [<-|X] Gx.
          + rewrite Ge in Gx. injection Gx as <-. apply F2. lia.
          + apply (F1 fuel) with (e := x); [lia|exact X|exact Gx].
        - exists f1. intros fuel Hf x t' [<-|X] Gx; [congruence|]. apply (F1 fuel Hf x t' X Gx). }
      destruct (B _ (incl_refl _)) as (f0 & F0). exists (S f0). intros [|fuel] Hf; [lia|]. cbn [flat_exec]. rewrite L, G. apply loop_ends.
      intros e t. apply F0. lia.
    + exists 1. intros [|fuel] Hf; [lia|]. cbn [flat_exec]. rewrite L, G. discriminate.
  - exists 1. intros [|fuel] Hf; [lia|]. cbn [flat_exec]. rewrite L. discriminate.
Qed.

(** ** Merging the cardinality of choices *)

Lemma times_app {A} (L : list A -> Prop) n m v w : times L n v -> times L m w -> times L (n + m) (v ++ w).
Proof. induction 1; cbn; auto. intros H'. rewrite <- app_assoc. constructor; auto. Qed.
Lemma times_regroup {A} (L L' : list A -> Prop) lo hi n w :
  (forall v, L v -> exists k, times L' k v /\ lo <= k /\ allows hi k) -> times L n w ->
  exists k, times L' k w /\ lo * n <= k /\ allows (max_times hi (Bounded n)) k.
Proof.
  intros H T. induction T as [|n v w Lv T IH].
  - exists 0. split; [constructor|]. split; [lia|]. destruct hi; cbn; auto. lia.
  - destruct (H _ Lv) as (k & K1 & K2 & K3), IH as (j & J1 & J2 & J3). exists (k + j). split; [apply times_app; assumption|].
    split; [nia|]. destruct hi; cbn in *; auto. nia.
Qed.
Lemma times_repeat {A} (L : list A -> Prop) (a : A) k : L [a] -> times L k (repeat a k).
Proof. intros H. induction k; cbn; [constructor|]. apply (times_more L k [a] (repeat a k)); assumption. Qed.

Lemma fold_min l : forall n, fold_left (fun n e => Nat.min n (el_min e)) l n <= n /\
  forall e, In e l -> fold_left (fun n e => Nat.min n (el_min e)) l n <= el_min e.
Proof.
  induction l as [|a l IH]; intros n; cbn; [split; [lia|intros e []]|]. destruct (IH (Nat.min n (el_min a))) as [A B].
  split; [lia|]. intros e [<-|I]; [lia|apply B, I].
Qed.
Lemma fold_max l : forall n, at_most n (fold_left (fun n e => max_max n (el_max e)) l n) /\
  (forall e, In e l -> at_most (el_max e) (fold_left (fun n e => max_max n (el_max e)) l n)) /\
  forall u, at_most n u -> (forall e, In e l -> at_most (el_max e) u) -> at_most (fold_left (fun n e => max_max n (el_max e)) l n) u.
Proof.
  induction l as [|a l IH]; intros n; cbn; [split; [intros k K; exact K|split; [intros e []|auto]]|].
  destruct (IH (max_max n (el_max a))) as (A & B & C). destruct (max_join n (el_max a)) as (J1 & J2 & J3).
  split; [intros k K; apply A, J1, K|]. split.
  - intros e [<-|I]; [intros k K; apply A, J2, K|apply B, I].
  - intros u U H. apply C; [apply J3; [exact U|apply H; left; reflexivity]|]. intros e I. apply H. right. exact I.
Qed.

Section one_choice.
  Variables (ts : types) (o o' : optimizer) (i c : tident) (ty : mtype) (x : complex_meta).
  Hypothesis Li : lookup i (o_types o) = Some ty.
  Hypothesis Vi : m_variant ty = VComplex x.
  Hypothesis Ci : cx_content x = Some c.
  Hypothesis Sm : forall t, inside ts c t -> same_at ts (o_types o) t.
  Hypothesis Ok' : merge_choice_cardinality o i = Ok o'.
  Hypothesis Li0 : lookup i ts = Some ty.

  Lemma one_choice : one_result ts o o' i c x (one_repeats ts i c).
  Proof.
    unfold merge_choice_cardinality, get_variant in Ok'. rewrite Li in Ok'. cbn in Ok'. rewrite Vi, Ci in Ok'.
    destruct (lookup c (o_types o)) as [tc|] eqn:Lc; [|discriminate]. cbn in Ok'. destruct (m_variant tc) as [| | | | | | |g| | |] eqn:Vc; try discriminate.
    set (mn := fold_left _ _ 1) in Ok'. set (mx := fold_left _ _ (Bounded 1)) in Ok'.
    assert (Nic : i <> c) by congruence.
    rewrite lookup_set in Ok'. destruct (tident_eq_dec c i) as [Eci|Nci]; [congruence|]. rewrite Li in Ok'. cbn in Ok'. rewrite Vi in Ok'. injection Ok' as <-.
    set (g1 := GroupMeta (gr_mixed g) (map reset_occurs (gr_elements g))). set (x1 := with_bounds _ _ x).
    unfold one_result. cbn [o_types with_types].
    set (t1 := set_type i (VComplex x1) (set_type c (VChoice g1) (o_types o))).
    assert (Lj : forall j, j <> i -> j <> c -> lookup j t1 = lookup j (o_types o)).
    { intros j A B. unfold t1. rewrite !lookup_set. destruct (tident_eq_dec i j); [congruence|]. destruct (tident_eq_dec c j); congruence. }
    assert (L1i : lookup i t1 = Some (set_variant ty (VComplex x1))).
    { unfold t1. rewrite !lookup_set. destruct (tident_eq_dec i i); [|congruence]. destruct (tident_eq_dec c i); [congruence|].
      rewrite Li. reflexivity. }
    assert (L1c : lookup c t1 = Some (set_variant tc (VChoice g1))).
    { unfold t1. rewrite !lookup_set. destruct (tident_eq_dec i c); [congruence|]. destruct (tident_eq_dec c c); [|congruence].
      rewrite Lc. reflexivity. }
    destruct (same_shape (o_types o) ts c tc (eq_sym (Sm _ (in_self _ _))) Lc) as (tc0 & Lc0 & Gc0). rewrite Vc in Gc0. apply shape_choice in Gc0.
    assert (Si : shape t1 i = shape (o_types o) i) by (unfold shape; rewrite L1i, Li; cbn; rewrite Vi; reflexivity).
    assert (St : forall u, u <> c -> shape t1 u = shape (o_types o) u).
    { intros u Nu. destruct (tident_eq_dec u i) as [->|Ni]; [exact Si|]. unfold shape. rewrite Lj by assumption. reflexivity. }
    split; [exact Lj|]. split; [exact Si|]. split; [|split; [|split; [exists (set_variant ty (VComplex x1)), x1; auto|
      exists tc0, (GChoice, g); rewrite Gc0; auto]]].
    - assert (G : forall u t, inside t1 u t -> inside ts c u -> inside ts c t).
      { intros u t I. induction I as [u|u ty2 m2 g2 e t t' L2 G2 I2 Ge R IH]; intros Iu; [exact Iu|]. apply IH.
        destruct (tident_eq_dec u c) as [->|Nu].
        - rewrite L1c in L2. injection L2 as <-. cbn in G2. injection G2 as <- <-. cbn in I2. apply in_map_iff in I2. destruct I2 as (e0 & <- & I2).
          apply (in_part ts c tc0 GChoice g e0 t t Lc0); [rewrite Gc0; reflexivity|exact I2|exact Ge|constructor].
        - assert (Z : same_at t1 ts u) by (unfold same_at; rewrite (St u Nu); symmetry; apply Sm, Iu).
          destruct (same_shape _ _ _ _ Z L2) as (ty3 & L3 & G3). apply (inside_trans ts c u t Iu).
          apply (in_part ts u ty3 m2 g2 e t t L3); [congruence|exact I2|exact Ge|constructor]. }
      intros t I. apply (G c t I). constructor.
    - intros (ty' & x' & tc' & g' & E1 & E2 & E3 & E4 & Rep & Nself) w (c' & nn & E & W & T).
      rewrite Li0 in E1. injection E1 as <-. rewrite Vi in E2. injection E2 as <-. rewrite Lc0 in E3. injection E3 as <-. rewrite Gc0 in E4. injection E4 as <-.
      rewrite Ci in E. injection E as <-.
      destruct (fold_min (gr_elements g) 1) as [M1 M2]. fold mn in M1, M2.
      destruct (fold_max (gr_elements g) (Bounded 1)) as (X1 & X2 & X3). fold mx in X1, X2, X3.
      assert (Hk : forall v, accepts ts c v -> exists k, times (accepts t1 c) k v /\ mn <= k /\ allows mx k).
      { intros v V. apply (accepts_lang ts c tc0 GChoice g v Lc0) in V; [|rewrite Gc0; reflexivity]. destruct V as (e & I & Pe).
        assert (Ac : forall u, part t1 (reset_occurs e) u -> accepts t1 c u).
        { intros u U. apply (acc_choice t1 c _ g1 (reset_occurs e) u L1c eq_refl); [apply in_map, I|exact U]. }
        destruct Pe as [e t k u Ge Wk Tk|e k Ge Wk].
        - exists k. split; [|split; [destruct Wk; specialize (M2 e I); lia|destruct Wk; apply (X2 e I); assumption]].
          eapply times_impl; [|exact Tk]. intros z Z. apply Ac. apply (part_group t1 (reset_occurs e) t 1 z Ge); [split; cbn; lia|].
          rewrite <- (app_nil_r z). constructor; [|constructor]. apply (accepts_frame ts t1 t z Z).
          intros q Q. assert (Nq : q <> c) by (intros ->; exact (Nself e t I Ge Q)). unfold same_at. rewrite (St q Nq). apply Sm.
          apply (in_part ts c tc0 GChoice g e t q Lc0); [rewrite Gc0; reflexivity|exact I|exact Ge|exact Q].
        - exists k. split; [|split; [destruct Wk; specialize (M2 e I); lia|destruct Wk; apply (X2 e I); assumption]].
          apply times_repeat. apply Ac. apply (part_child t1 (reset_occurs e) 1 Ge). split; cbn; lia. }
      destruct (times_regroup _ _ _ _ _ _ Hk T) as (k & K1 & K2 & K3). destruct W as [W1 W2].
      exists (set_variant ty (VComplex x1)), x1. split; [exact L1i|]. split; [reflexivity|]. exists c, k. split; [exact Ci|]. split; [|exact K1].
      split; cbn.
      + assert (mn = 0 \/ mn = 1) as [Z|Z] by lia; rewrite Z in *; lia.
      + destruct Rep as [R|[R|[R|(e & I & R)]]].
        * apply allows_max_l. pose proof (R nn W2) as Rn. cbn in Rn. destruct mx as [|hi]; cbn in *; auto. nia.
        * apply allows_max_r. assert (Mb : at_most mx (Bounded 1)) by (apply X3; [intros z Z; exact Z|exact R]).
          apply (allows_le _ nn); [exact W2|]. destruct mx as [|hi]; [specialize (Mb 2 Logic.I); cbn in Mb; lia|]. cbn in K3.
          assert (hi <= 1) by (apply (Mb hi); cbn; lia). nia.
        * rewrite R. destruct mx; exact Logic.I.
        * apply allows_max_l. apply (X2 e I). rewrite R. exact Logic.I.
  Qed.
End one_choice.

Definition choice_step (o : optimizer) (i : tident) (o' : optimizer) : Prop := merge_choice_cardinality o i = Ok o'.
Lemma choice_steps ids : forall o o', fold_left (fun acc i => match acc with Ok o => match merge_choice_cardinality o i with Err _ => Panic | r => r end | r => r end) ids (Ok o) = Ok o' ->
  steps choice_step ids o o'.
Proof.
  induction ids as [|i ids IH]; intros o o' H; cbn [fold_left] in H; [injection H as <-; constructor|].
  assert (Stuck : forall r, (forall o, r <> Ok o) -> fold_left (fun acc i => match acc with Ok o => match merge_choice_cardinality o i with Err _ => Panic | r => r end | r => r end) ids r = r).
  { clear. intros r H. induction ids as [|i ids IH]; cbn; [reflexivity|]. destruct r; cbn; try exact IH. exfalso. eapply H. reflexivity. }
  destruct (merge_choice_cardinality o i) as [o1|r|] eqn:F.
  - econstructor; [exact F|apply IH, H].
  - rewrite Stuck in H by discriminate. discriminate.
  - rewrite Stuck in H by discriminate. discriminate.
Qed.
Lemma choices_pass o o' : NoDup (map fst (o_types o)) -> private_contents (o_types o) -> merge_choice_cardinalities o = Ok o' ->
  forall i c w, content_of (o_types o) i c -> (one_repeats (o_types o) i c \/ forall tc g, lookup c (o_types o) = Some tc -> m_variant tc <> VChoice g) ->
    type_accepts (o_types o) i w -> type_accepts (o_types o') i w.
Proof.
  intros ND PC H i c w C Ok W.
  pose proof (choice_steps _ o o' H : steps _ (complex_idents (has_choice_content (o_types o)) (o_types o)) o o') as St.
  refine (proj2 (proj2 (pass_fold (o_types o) PC (fun j d => one_repeats (o_types o) j d \/ forall tc g, lookup d (o_types o) = Some tc -> m_variant tc <> VChoice g) choice_step _ _ _ _ o o' _ _ St i c C c C)) Ok w W).
  - intros o1 j o2 d x ty D L V F. right. intros [Lj Sj].
    assert (Cx : cx_content x = Some d) by (destruct D as (? & ? & X & Y & Z); congruence).
    assert (L' : lookup j (o_types o1) = Some ty) by congruence.
    pose proof (one_choice (o_types o) o1 o2 j d ty x L' V Cx (Sj d D) F L) as (A1 & A2 & A3 & A4 & A5 & tc & p & A6 & A7).
    split; [exact A1|]. split; [exact A2|]. split; [exact A3|]. split; [|split; [exact A5|exists tc, p; auto]].
    intros [G|G]; [exact (A4 G)|]. exfalso. revert F. unfold choice_step, merge_choice_cardinality, get_variant. rewrite L'. cbn. rewrite V, Cx.
    pose proof (Sj d D d (in_self _ _)) as Sd. unfold same_at, shape in Sd. rewrite A6 in Sd. cbn in Sd.
    destruct (lookup d (o_types o1)) as [td|] eqn:Ld; cbn; [|discriminate]. cbn in Sd. destruct (m_variant td) as [| | | | | | |g| | |] eqn:Vd; try discriminate.
    cbn in Sd. injection Sd as Sd. apply shape_choice in Sd. exfalso. exact (G tc g A6 Sd).
  - apply nodup_filter, ND.
  - intros j I. destruct (complex_idents_in _ _ _ ND I) as (ty & x & L & V & P).
    destruct (has_content _ (o_types o) x (or_intror eq_refl) P) as (d & D). exists d, ty, x. auto.
  - intros. apply start_todo.
  - intros. apply todo_fine, start_todo.
Qed.
