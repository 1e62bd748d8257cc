From Coq Require Import ZArith Decimal DecimalN DecimalString.
From Verif Require Import OccursModel OccursSpec.
Local Open Scope string_scope.

Lemma usize_ok limit n m : usize limit n = Ok m -> m = n /\ n <= limit.
Proof. unfold usize. destruct (Nat.leb_spec n limit); [|discriminate]. intros [= <-]. auto. Qed.

Definition padd (a b : max_occurs) : max_occurs :=
  match a, b with Bounded x, Bounded y => Bounded (x + y) | _, _ => Unbounded end.
Definition pmul (a b : max_occurs) : max_occurs :=
  match a, b with Bounded x, Bounded y => Bounded (x * y) | _, _ => Unbounded end.

Lemma add_val limit a b c : max_add limit a b = Ok c -> c = padd a b.
Proof.
  destruct a as [|x], b as [|y]; cbn; try congruence. unfold usize_add. destruct usize eqn:E; try discriminate.
  apply usize_ok in E. intros [= <-]. f_equal. apply E.
Qed.
Lemma mul_val limit a b c : max_mul limit a b = Ok c -> c = pmul a b.
Proof.
  destruct a as [|x], b as [|y]; cbn; try congruence. unfold usize_mul. destruct usize eqn:E; try discriminate.
  apply usize_ok in E. intros [= <-]. f_equal. apply E.
Qed.

Ltac occ :=
  repeat match goal with
  | H : max_add _ _ _ = Ok _ |- _ => apply add_val in H
  | H : max_mul _ _ _ = Ok _ |- _ => apply mul_val in H
  end; subst.

Lemma add_meaning limit a b c : max_add limit a b = Ok c ->
  forall n, allows c n <-> exists i j, n = i + j /\ allows a i /\ allows b j.
Proof.
  intros H n. occ. destruct a as [|n0], b as [|n1]; cbn.
  - split; [intros _; exists n, 0; auto with arith|tauto].
  - split; [intros _; exists n, 0; repeat split; lia|tauto].
  - split; [intros _; exists 0, n; repeat split; lia|tauto].
  - split; [intros Hn; exists (Nat.min n n0), (n - n0); lia|intros (i & j & -> & ? & ?); lia].
Qed.

Lemma add_panics limit a b :
  (max_add limit a b = Panic <-> exists x y, a = Bounded x /\ b = Bounded y /\ limit < x + y) /\
  forall e, max_add limit a b <> Err e.
Proof.
  split; [split|].
  - destruct a as [|x], b as [|y]; cbn; try discriminate. unfold usize_add, usize.
    destruct (Nat.leb_spec (x + y) limit); [discriminate|]. eauto.
  - intros (x & y & -> & -> & L). cbn. unfold usize_add, usize. destruct (Nat.leb_spec (x + y) limit); [lia|reflexivity].
  - intros e. destruct a as [|x], b as [|y]; cbn; try discriminate. unfold usize_add, usize. destruct Nat.leb; discriminate.
Qed.

Lemma add_comm limit a b : max_add limit a b = max_add limit b a.
Proof. destruct a, b; cbn; try reflexivity. unfold usize_add. rewrite Nat.add_comm. reflexivity. Qed.
Lemma mul_comm limit a b : max_mul limit a b = max_mul limit b a.
Proof. destruct a, b; cbn; try reflexivity. unfold usize_mul. rewrite Nat.mul_comm. reflexivity. Qed.

Lemma add_assoc limit a b c ab bc l r :
  max_add limit a b = Ok ab -> max_add limit ab c = Ok l ->
  max_add limit b c = Ok bc -> max_add limit a bc = Ok r -> l = r.
Proof. intros H1 H2 H3 H4. occ. destruct a, b, c; cbn; try reflexivity. f_equal. lia. Qed.
Lemma mul_assoc limit a b c ab bc l r :
  max_mul limit a b = Ok ab -> max_mul limit ab c = Ok l ->
  max_mul limit b c = Ok bc -> max_mul limit a bc = Ok r -> l = r.
Proof. intros H1 H2 H3 H4. occ. destruct a, b, c; cbn; try reflexivity. f_equal. ring. Qed.
Lemma mul_distr limit a b c bc l ab ac r :
  max_add limit b c = Ok bc -> max_mul limit a bc = Ok l ->
  max_mul limit a b = Ok ab -> max_mul limit a c = Ok ac -> max_add limit ab ac = Ok r -> l = r.
Proof. intros H1 H2 H3 H4 H5. occ. destruct a, b, c; cbn; try reflexivity. f_equal. ring. Qed.

Lemma at_most_leb a b : max_leb a b = true <-> at_most a b.
Proof.
  unfold max_leb, max_cmp, at_most. destruct a as [|x], b as [|y]; cbn.
  - tauto.
  - split; [discriminate|]. intros H. specialize (H (S y) I). lia.
  - tauto.
  - destruct (Nat.compare_spec x y) as [E|E|E]; split; intros H; try reflexivity; try discriminate; try lia.
    specialize (H x). lia.
Qed.

Lemma add_mono limit a a' b b' c c' : at_most a a' -> at_most b b' ->
  max_add limit a b = Ok c -> max_add limit a' b' = Ok c' -> at_most c c'.
Proof.
  intros Ha Hb H H'. intros n. rewrite (add_meaning _ _ _ _ H), (add_meaning _ _ _ _ H').
  intros (i & j & E & A & B). exists i, j. auto.
Qed.

Lemma mul_mono limit a a' b b' c c' : at_most a a' -> at_most b b' ->
  max_mul limit a b = Ok c -> max_mul limit a' b' = Ok c' -> at_most c c'.
Proof.
  intros Ha Hb H H'. apply at_most_leb in Ha. apply at_most_leb in Hb. apply at_most_leb.
  unfold max_leb, max_cmp in *.
  occ. destruct a as [|x], b as [|y], a' as [|x'], b' as [|y']; cbn; try reflexivity; try discriminate.
  destruct (Nat.compare_spec x x'), (Nat.compare_spec y y'); try discriminate; subst;
    match goal with |- match Nat.compare ?x ?y with _ => _ end = _ => destruct (Nat.compare_spec x y); try reflexivity; exfalso; nia end.
Qed.

Lemma max_join a b : at_most a (max_max a b) /\ at_most b (max_max a b) /\
  forall c, at_most a c -> at_most b c -> at_most (max_max a b) c.
Proof.
  assert (L : forall x y, max_cmp x y = Gt -> max_leb y x = true).
  { intros [|x] [|y]; cbn; try discriminate; try reflexivity. unfold max_leb, max_cmp.
    rewrite Nat.compare_antisym. destruct (Nat.compare y x); cbn; congruence. }
  unfold max_max. destruct (max_cmp a b) eqn:E.
  - split; [apply at_most_leb; unfold max_leb; rewrite E; reflexivity|]. split; [intros n; exact id|auto].
  - split; [apply at_most_leb; unfold max_leb; rewrite E; reflexivity|]. split; [intros n; exact id|auto].
  - split; [intros n; exact id|]. split; [apply at_most_leb, L, E|auto].
Qed.

Lemma sum_bounded k l : Forall (fun n => n <= k) l -> list_sum l <= length l * k.
Proof. unfold list_sum. induction 1; cbn in *; lia. Qed.

Lemma repeat_split x k n : n <= x * k -> k <> 0 -> exists l, length l <= x /\ Forall (fun m => m <= k) l /\ n = list_sum l.
Proof.
  intros H Hk. revert n H. induction x as [|x IH]; intros n H; cbn in H.
  - exists []. cbn. split; [lia|]. split; [constructor|lia].
  - destruct (IH (n - k)) as (l & L & F & E); [lia|].
    exists (Nat.min n k :: l). cbn. split; [lia|]. split; [constructor; [lia|exact F]|]. unfold list_sum in *. cbn. lia.
Qed.

Lemma mul_meaning limit a b c : max_mul limit a b = Ok c -> a <> Bounded 0 -> b <> Bounded 0 ->
  forall n, allows c n <-> grouped a b n.
Proof.
  intros H Ha Hb n. unfold grouped. occ. destruct a as [|n0], b as [|n1]; cbn.
  - split; [|tauto]. intros _. exists [n]. unfold list_sum. cbn. split; [exact I|]. split; [repeat constructor|lia].
  - split; [|tauto]. intros _. destruct (repeat_split n n1 n) as (l & L & F & E); [destruct n1; [congruence|nia]|intros ->; congruence|].
    exists l. auto.
  - split; [|tauto]. intros _. exists [n]. unfold list_sum. cbn. destruct n0; [congruence|]. split; [lia|]. split; [repeat constructor|lia].
  - split.
    + intros L. apply repeat_split; [exact L|intros ->; congruence].
    + intros (l & L & F & ->). apply sum_bounded in F. nia.
Qed.

Lemma mul_sound limit a b c : max_mul limit a b = Ok c -> forall n, grouped a b n -> allows c n.
Proof.
  intros H n (l & L & F & ->). occ. destruct a as [|x], b as [|y]; cbn; auto. cbn in L. apply sum_bounded in F. nia.
Qed.

Lemma uint_head u : match NilZero.string_of_uint u with String c _ => Ascii.eqb c "+" = false /\ Ascii.eqb c "u" = false | _ => False end.
Proof. destruct u; cbn; auto. Qed.

Lemma parse_print limit m : (forall n, m = Bounded n -> n <= limit) -> max_parse limit (max_print m) = Some m.
Proof.
  intros H. destruct m as [|n]; [reflexivity|]. specialize (H n eq_refl).
  unfold max_parse, max_print. set (u := N.to_uint (N.of_nat n)).
  pose proof (uint_head u) as U.
  assert (E : NilZero.uint_of_string (NilZero.string_of_uint u) = Some u).
  { apply NilZero.usu. unfold u. intros Q. assert (X : N.of_uint (N.to_uint (N.of_nat n)) = N.of_uint Nil) by (rewrite Q; reflexivity).
    rewrite DecimalN.Unsigned.of_to in X. destruct n; [cbn in Q; discriminate|]. cbn in X. discriminate X. }
  unfold usize_parse. destruct (NilZero.string_of_uint u) as [|c s]; [contradiction|]. destruct U as [U1 U2].
  replace (String.eqb (String c s) "unbounded") with false
    by (symmetry; apply String.eqb_neq; intros [= -> _]; discriminate).
  replace (match String c s with String "+" s' => s' | _ => String c s end) with (String c s).
  2:{ destruct c as [[][][][][][][][]]; try reflexivity; discriminate. }
  rewrite E. unfold u. rewrite DecimalN.Unsigned.of_to.
  destruct (N.leb_spec (N.of_nat n) (N.of_nat limit)); [|lia]. rewrite Nnat.Nat2N.id. reflexivity.
Qed.

Lemma digits_inv n c s m : digits_after n (String c s) m ->
  exists k, c = ascii_of_nat (48 + k) /\ k < 10 /\ digits_after (10 * n + k) s m.
Proof.
  intros H. remember (String c s) as t eqn:E. destruct H as [n|n k s' m K H]; [discriminate|].
  exists k. pose proof (f_equal (fun s => match s with String c _ => c | _ => c end) E) as E1.
  pose proof (f_equal (fun s => match s with String _ t => t | _ => s end) E) as E2. cbn beta iota in E1, E2. subst. auto.
Qed.

Lemma digits_det n s a b : digits_after n s a -> digits_after n s b -> a = b.
Proof.
  intros H. revert b. induction H as [n|n k s m K H IH]; intros b B.
  - inversion B. reflexivity.
  - apply digits_inv in B. destruct B as (k' & E & K' & B). apply IH.
    assert (k' = k); [|subst; exact B].
    apply (f_equal nat_of_ascii) in E. rename E into X.
    rewrite !nat_ascii_embedding in X by lia. lia.
Qed.

Lemma digit_cases c u d : uint_of_char c (Some u) = Some d ->
  (c = "0"%char /\ d = D0 u) \/ (c = "1"%char /\ d = D1 u) \/ (c = "2"%char /\ d = D2 u) \/ (c = "3"%char /\ d = D3 u) \/
  (c = "4"%char /\ d = D4 u) \/ (c = "5"%char /\ d = D5 u) \/ (c = "6"%char /\ d = D6 u) \/ (c = "7"%char /\ d = D7 u) \/
  (c = "8"%char /\ d = D8 u) \/ (c = "9"%char /\ d = D9 u).
Proof. destruct c as [[][][][][][][][]]; cbn; intros [= <-]; tauto. Qed.

Lemma digit_next n k s m c : c = ascii_of_nat (48 + k) -> k < 10 -> digits_after (10 * n + k) s m -> digits_after n (String c s) m.
Proof. intros ->. apply digits_next. Qed.

Lemma digits_acc s : forall u acc, NilEmpty.uint_of_string s = Some u ->
  digits_after (Pos.to_nat acc) s (Pos.to_nat (Pos.of_uint_acc u acc)).
Proof.
  induction s as [|c s IH]; intros d acc; cbn [NilEmpty.uint_of_string].
  - intros [= <-]. constructor.
  - destruct (NilEmpty.uint_of_string s) as [u|]; [|discriminate]. intros H.
    apply digit_cases in H.
    repeat (destruct H as [[-> ->]|H]).
    all: try (destruct H as [-> ->]).
    all: cbn [Pos.of_uint_acc].
    1: apply (digit_next _ 0); [reflexivity|lia|].
    2: apply (digit_next _ 1); [reflexivity|lia|].
    3: apply (digit_next _ 2); [reflexivity|lia|].
    4: apply (digit_next _ 3); [reflexivity|lia|].
    5: apply (digit_next _ 4); [reflexivity|lia|].
    6: apply (digit_next _ 5); [reflexivity|lia|].
    7: apply (digit_next _ 6); [reflexivity|lia|].
    8: apply (digit_next _ 7); [reflexivity|lia|].
    9: apply (digit_next _ 8); [reflexivity|lia|].
    10: apply (digit_next _ 9); [reflexivity|lia|].
    all: match goal with |- digits_after _ _ (Pos.to_nat (Pos.of_uint_acc _ ?p)) =>
           match goal with |- digits_after ?x _ _ => replace x with (Pos.to_nat p) by (try change (N.pos 10) with 10%N; lia) end end;
         apply IH; reflexivity.
Qed.

Lemma digits_value s u : NilEmpty.uint_of_string s = Some u -> digits_after 0 s (N.to_nat (N.of_uint u)).
Proof.
  unfold N.of_uint. revert u. induction s as [|c s IH]; intros d; cbn [NilEmpty.uint_of_string].
  - intros [= <-]. constructor.
  - destruct (NilEmpty.uint_of_string s) as [u|] eqn:E; [|discriminate]. intros H. apply digit_cases in H.
    destruct H as [[-> ->]|H].
    { apply (digit_next _ 0); [reflexivity|lia|]. exact (IH u eq_refl). }
    repeat (destruct H as [[-> ->]|H]).
    all: try (destruct H as [-> ->]).
    all: cbn [Pos.of_uint N.to_nat].
    1: apply (digit_next _ 1); [reflexivity|lia|].
    2: apply (digit_next _ 2); [reflexivity|lia|].
    3: apply (digit_next _ 3); [reflexivity|lia|].
    4: apply (digit_next _ 4); [reflexivity|lia|].
    5: apply (digit_next _ 5); [reflexivity|lia|].
    6: apply (digit_next _ 6); [reflexivity|lia|].
    7: apply (digit_next _ 7); [reflexivity|lia|].
    8: apply (digit_next _ 8); [reflexivity|lia|].
    9: apply (digit_next _ 9); [reflexivity|lia|].
    all: match goal with |- digits_after _ _ (Pos.to_nat (Pos.of_uint_acc _ ?p)) =>
           match goal with |- digits_after ?x _ _ => change x with (Pos.to_nat p) end end;
         apply digits_acc; exact E.
Qed.

Lemma digits_parse n s m : digits_after n s m -> exists u, NilEmpty.uint_of_string s = Some u.
Proof.
  induction 1 as [n|n k s m K H [u IH]]; cbn [NilEmpty.uint_of_string]; [eexists; reflexivity|].
  rewrite IH. do 10 (destruct k as [|k]; [eexists; reflexivity|]). lia.
Qed.

Lemma nilzero s : NilZero.uint_of_string s = match s with EmptyString => None | _ => NilEmpty.uint_of_string s end.
Proof. destruct s; reflexivity. Qed.

Lemma digits_number t n : (t <> "" /\ digits_after 0 t n) <-> exists u, NilZero.uint_of_string t = Some u /\ n = N.to_nat (N.of_uint u).
Proof.
  rewrite nilzero. split.
  - intros [NE D]. destruct (digits_parse _ _ _ D) as [u E]. exists u. destruct t; [congruence|].
    split; [exact E|]. apply (digits_det _ _ _ _ D). apply digits_value. exact E.
  - intros (u & E & ->). destruct t as [|c t]; [discriminate|]. split; [discriminate|]. apply digits_value. exact E.
Qed.

Lemma plus_digits t n : ~ digits_after 0 (String "+" t) n.
Proof.
  intros H. apply digits_inv in H. destruct H as (k & E & K & _). do 10 (destruct k as [|k]; [discriminate|]). lia.
Qed.

Lemma parse_meaning limit s m : max_parse limit s = Some m <->
  (s = "unbounded" /\ m = Unbounded) \/ (exists n, m = Bounded n /\ n <= limit /\ is_number s n).
Proof.
  unfold max_parse. destruct (String.eqb_spec s "unbounded") as [->|NU].
  - split; [intros [= <-]; auto|]. intros [[_ ->]|(n & -> & _ & t & [<-|E] & _ & D)]; [reflexivity| |discriminate].
    exfalso. apply digits_parse in D. destruct D as [u D]. discriminate.
  - set (digits := match s with String "+" s' => s' | _ => s end).
    assert (X : forall n, is_number s n <-> digits <> "" /\ digits_after 0 digits n).
    { intros n. split.
      - intros (t & [<-|E] & NE & D).
        + assert (DS : digits = s); [|rewrite DS; auto].
          unfold digits. destruct s as [|c s]; [reflexivity|].
          destruct (Ascii.eqb_spec c "+") as [->|NC]; [exfalso; exact (plus_digits _ _ D)|].
          destruct c as [[][][][][][][][]]; try reflexivity. congruence.
        + subst s. cbn in digits. subst digits. auto.
      - intros H. exists digits. split; [|exact H]. unfold digits. destruct s as [|c s]; [auto|].
        destruct c as [[][][][][][][][]]; auto. }
    unfold usize_parse. fold digits. split.
    + destruct (NilZero.uint_of_string digits) as [u|] eqn:E; [|discriminate].
      destruct (N.leb_spec (N.of_uint u) (N.of_nat limit)) as [L|L]; [|discriminate]. intros [= <-].
      right. exists (N.to_nat (N.of_uint u)). split; [reflexivity|]. split; [lia|]. apply X. apply digits_number.
      exists u. auto.
    + intros [[E _]|(n & -> & L & H)]; [congruence|]. apply X in H. apply digits_number in H.
      destruct H as (u & -> & ->). destruct (N.leb_spec (N.of_uint u) (N.of_nat limit)); [reflexivity|lia].
Qed.
