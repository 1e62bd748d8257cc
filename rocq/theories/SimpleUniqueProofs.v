(** A text has one value at most, and a value of a generated type stands for one. *)
From Verif Require Import SimpleModel SimpleSpec SimpleTextProofs SimpleProofs.

Lemma normalizes_unique w t s s' : normalizes w t s -> normalizes w t s' -> s = s'.
Proof.
  destruct w; cbn; intros H H'; try congruence. destruct H as (l & H & ->), H' as (l' & H' & ->).
  rewrite (words_unique _ _ _ _ H H'). reflexivity.
Qed.
Lemma forall2_unique {A B} (R : A -> B -> Prop) l : (forall x, In x l -> forall y y', R x y -> R x y' -> y = y') ->
  forall ys ys', Forall2 R l ys -> Forall2 R l ys' -> ys = ys'.
Proof.
  induction l as [|x l IH]; intros HU ys ys' H H'; inversion H; inversion H'; subst; [reflexivity|]. f_equal.
  - apply (HU x (or_introl eq_refl)); assumption.
  - apply IH; [|assumption|assumption]. intros z Hz. apply HU. right. exact Hz.
Qed.

Section Unique.
  Context {atom : Type}.
  Variable parse : nat -> list N -> option atom.
  Variable builtin_white : nat -> white.
  Variable lt le : atom -> atom -> bool.
  Variable chars : atom -> nat.
  Variable matches : list N -> list N -> bool.
  Notation denotes := (denotes parse builtin_white lt le chars matches).
  Notation stands := (stands parse builtin_white lt le chars matches).

  Lemma denotes_unique d : forall t x x', denotes d t x -> denotes d t x' -> x = x'.
  Proof.
    induction d as [b [|]|i base fs IH|item IH|ms IH] using sdef_nested; intros t x x' H H'.
    - destruct H as (l & vs & Hl & HF & ->), H' as (l' & vs' & Hl' & HF' & ->). rewrite (words_unique _ _ _ _ Hl' Hl) in HF'.
      do 2 f_equal. apply (forall2_unique (fun w a => parse b w = Some a) l); [|assumption|assumption]. intros w _ a a' E E'. congruence.
    - destruct H as (s & a & Hn & E & ->), H' as (s' & a' & Hn' & E' & ->). rewrite (normalizes_unique _ _ _ _ Hn' Hn) in E'. congruence.
    - destruct H as (s & Hn & H & _), H' as (s' & Hn' & H' & _). rewrite (normalizes_unique _ _ _ _ Hn' Hn) in H'. apply (IH s x x' H H').
    - destruct H as (l & xs & Hl & HF & ->), H' as (l' & xs' & Hl' & HF' & ->). rewrite (words_unique _ _ _ _ Hl' Hl) in HF'.
      f_equal. apply (forall2_unique (denotes item) l); [|assumption|assumption]. intros w _. apply IH.
    - revert H H'. change (denotes (SUnion ms) t x) with ((fix first (i : nat) (l : list sdef) : Prop :=
           match l with
           | [] => False
           | m :: l' => (exists y, denotes m t y /\ x = XUnion i y) \/ (forall y, ~ denotes m t y) /\ first (S i) l'
           end) 0 ms).
      change (denotes (SUnion ms) t x') with ((fix first (i : nat) (l : list sdef) : Prop :=
           match l with
           | [] => False
           | m :: l' => (exists y, denotes m t y /\ x' = XUnion i y) \/ (forall y, ~ denotes m t y) /\ first (S i) l'
           end) 0 ms).
      generalize 0. induction IH as [|m ms Hm HF IHl]; intros k H H'; [destruct H|].
      destruct H as [(y & H & ->)|(HN & H)], H' as [(y' & H' & ->)|(HN' & H')].
      + f_equal. apply (Hm t y y' H H').
      + elim (HN' y H).
      + elim (HN y' H').
      + apply (IHl (S k) H H').
  Qed.

  Lemma stands_unique d : forall v x x', stands d v x -> stands d v x' -> x = x'.
  Proof.
    induction d as [b [|]|i base fs IH|item IH|ms IH] using sdef_nested; intros v x x' H H'.
    - destruct H as (l & -> & ->), H' as (l' & E & ->). injection E as E. do 2 f_equal.
      revert l' E. induction l as [|a l IHl]; intros [|a' l'] E; try discriminate; [reflexivity|]. injection E as E1 E2. f_equal; auto.
    - destruct H as (a & -> & ->), H' as (a' & E & ->). congruence.
    - cbn [SimpleSpec.stands] in H, H'. destruct v; try apply (IH _ _ _ H H'). destruct H as (_ & H), H' as (_ & H').
      apply (denotes_unique base name x x' H H').
    - destruct H as (vs & xs & -> & -> & HF), H' as (vs' & xs' & E & -> & HF'). injection E as <-. f_equal.
      apply (forall2_unique (stands item) vs); [|assumption|assumption]. intros w _. apply IH.
    - revert H H'. change (stands (SUnion ms) v x) with ((fix at_ (i : nat) (l : list sdef) : Prop :=
           match l with
           | [] => False
           | m :: l' => (exists w y, v = VUnion i w /\ x = XUnion i y /\ stands m w y) \/ at_ (S i) l'
           end) 0 ms).
      change (stands (SUnion ms) v x') with ((fix at_ (i : nat) (l : list sdef) : Prop :=
           match l with
           | [] => False
           | m :: l' => (exists w y, v = VUnion i w /\ x' = XUnion i y /\ stands m w y) \/ at_ (S i) l'
           end) 0 ms).
      assert (HI : forall x ms k, (fix at_ (i : nat) (l : list sdef) : Prop :=
           match l with
           | [] => False
           | m :: l' => (exists w y, v = VUnion i w /\ x = XUnion i y /\ stands m w y) \/ at_ (S i) l'
           end) k ms -> exists i w, v = VUnion i w /\ k <= i).
      { clear. intros x. induction ms as [|m ms IHm]; intros k H; [destruct H|]. destruct H as [(w & y & -> & _)|H]; [exists k, w; auto|].
        destruct (IHm _ H) as (i & w & -> & Hi). exists i, w. split; [reflexivity|lia]. }
      generalize 0. induction IH as [|m ms Hm HF IHl]; intros k H H'; [destruct H|].
      destruct H as [(w & y & E & -> & H)|H], H' as [(w' & y' & E' & -> & H')|H'].
      + rewrite E in E'. injection E' as <-. f_equal. apply (Hm w y y' H H').
      + destruct (HI _ _ _ H') as (i & u & E' & Hi). rewrite E in E'. injection E' as E' _. lia.
      + destruct (HI _ _ _ H) as (i & u & E & Hi). rewrite E' in E. injection E as E _. lia.
      + apply (IHl (S k) H H').
  Qed.
End Unique.
