(** Clear texts: normalization changes nothing, lists split into words. *)
From Verif Require Import SimpleModel SimpleSpec FacetProofs.

(** ** Words are unique *)

Section Words.
  Variable ws : N -> bool.
  Fixpoint cut (s : list N) : list N * list (list N) :=
    match s with
    | [] => ([], [])
    | c :: s' =>
        let (w, l) := cut s' in
        if ws c then ([], match w with [] => l | _ => w :: l end) else (c :: w, l)
    end.
  Definition cut_words (s : list N) : list (list N) := let (w, l) := cut s in match w with [] => l | _ => w :: l end.

  Lemma cut_blank a s : forallb ws a = true -> cut_words (a ++ s) = cut_words s.
  Proof.
    induction a as [|c a IH]; cbn; [reflexivity|]. rewrite andb_true_iff. intros (Hc & Ha).
    unfold cut_words in *. cbn. specialize (IH Ha). destruct (cut (a ++ s)) as [w l]. rewrite Hc.
    destruct (cut s) as [w' l']. exact IH.
  Qed.
  Lemma cut_word w s : forallb (fun c => negb (ws c)) w = true -> match s with [] => True | c :: _ => ws c = true end ->
    cut (w ++ s) = (w, cut_words s).
  Proof.
    intros Hw Hs. induction w as [|c w IH]; cbn.
    - unfold cut_words. destruct s as [|c s]; [reflexivity|]. cbn. rewrite Hs.
      destruct (cut s) as [w l]. destruct w; reflexivity.
    - cbn in Hw. apply andb_prop in Hw as [Hc Hw]. rewrite (IH Hw). apply negb_true_iff in Hc. rewrite Hc. reflexivity.
  Qed.
  Lemma cut_spec l s : words_of ws l s -> cut_words s = l.
  Proof.
    induction 1 as [s H|a w s l Ha Hw0 Hw Hs H IH].
    - rewrite <- (app_nil_r s), cut_blank by exact H. reflexivity.
    - rewrite cut_blank by exact Ha. unfold cut_words. rewrite cut_word by assumption.
      rewrite IH. destruct w; [elim Hw0; reflexivity|reflexivity].
  Qed.
  Lemma words_unique l l' s : words_of ws l s -> words_of ws l' s -> l = l'.
  Proof. intros H H'. rewrite <- (cut_spec _ _ H). apply (cut_spec _ _ H'). Qed.
End Words.

(** ** Characters *)

Lemma visible_unicode c : (32 < c < 128)%N -> unicode_ws c = false.
Proof.
  intros H. unfold unicode_ws.
  repeat match goal with
  | |- context [(?a <=? ?b)%N] => destruct (N.leb_spec a b); try lia
  | |- context [(?a =? ?b)%N] => destruct (N.eqb_spec a b); try lia
  end; reflexivity.
Qed.
Lemma visible_xml c : (32 < c < 128)%N -> xml_ws c = false.
Proof.
  intros H. unfold xml_ws.
  repeat match goal with |- context [(?a =? ?b)%N] => destruct (N.eqb_spec a b); try lia end; reflexivity.
Qed.
Lemma visible_ascii c : (32 < c < 128)%N -> ascii_ws c = false.
Proof.
  intros H. unfold ascii_ws.
  repeat match goal with |- context [(?a =? ?b)%N] => destruct (N.eqb_spec a b); try lia end; reflexivity.
Qed.
Lemma visible_sep c : (32 < c < 128)%N -> item_sep c = false.
Proof.
  intros H. unfold item_sep.
  repeat match goal with |- context [(?a =? ?b)%N] => destruct (N.eqb_spec a b); try lia end; reflexivity.
Qed.

(** ** Clear texts *)

Definition word_ok (w : list N) : Prop := w <> [] /\ Forall (fun c => (32 < c < 128)%N) w.

Lemma clear_ok dg l : Forall (clear_word dg) l -> Forall word_ok l.
Proof. apply Forall_impl. intros w (H1 & H2 & _). split; assumption. Qed.

Lemma clear_mono dg dg' t : (dg' = true -> dg = true) -> clear_text dg t -> clear_text dg' t.
Proof.
  intros HI (l & E & H). exists l. split; [exact E|]. revert H. apply Forall_impl.
  intros w (H1 & H2 & H3). split; [exact H1|]. split; [exact H2|]. intros D. apply H3, HI, D.
Qed.

Lemma ok_words ws l : (forall c, (32 < c < 128)%N -> ws c = false) -> Forall word_ok l ->
  Forall (fun w => w <> [] /\ forallb (fun c => negb (ws c)) w = true) l.
Proof.
  intros HW. apply Forall_impl. intros w (H1 & H2). split; [exact H1|].
  apply forallb_forall. intros c Hc. rewrite Forall_forall in H2. rewrite HW by (apply H2, Hc). reflexivity.
Qed.

Lemma ok_of_words ws l : ws 32%N = true -> (forall c, (32 < c < 128)%N -> ws c = false) -> Forall word_ok l ->
  words_of ws l (join_blank l).
Proof. intros H32 HW H. apply join_words; [exact H32|]. apply ok_words; assumption. Qed.

Lemma clear_collapse l : Forall word_ok l -> whitespace_collapse (join_blank l) = join_blank l.
Proof. intros H. apply collapse_words, ok_of_words; [reflexivity|exact visible_unicode|exact H]. Qed.

Lemma clear_trim l : Forall word_ok l -> str_trim (join_blank l) = join_blank l.
Proof.
  intros H. destruct l as [|w l]; [reflexivity|].
  pose proof (ok_words unicode_ws _ visible_unicode H) as HF.
  destruct (join_first (w :: l)) as (c & r & Ec & Hc); [discriminate|exact HF|].
  destruct (join_last (w :: l)) as (c' & r' & Ec' & Hc'); [discriminate|exact HF|].
  unfold str_trim. rewrite Ec at 1. rewrite trim_start_id by exact Hc. rewrite <- Ec, Ec', rev_app_distr. cbn [rev app].
  rewrite trim_start_id by exact Hc'. cbn [rev]. rewrite rev_involutive. reflexivity.
Qed.

Lemma ok_chars l : Forall word_ok l -> Forall (fun c => (32 <= c < 128)%N) (join_blank l).
Proof.
  induction l as [|w l IH]; intros H; [constructor|]. inversion_clear H as [|x y [_ Hw] H0].
  assert (Hw' : Forall (fun c => (32 <= c < 128)%N) w) by (revert Hw; apply Forall_impl; intros; lia).
  destruct l as [|w' l]; [exact Hw'|].
  change (join_blank (w :: w' :: l)) with (w ++ 32%N :: join_blank (w' :: l)).
  apply Forall_app. split; [exact Hw'|]. constructor; [lia|]. apply IH, H0.
Qed.

Lemma map_same {A} (f : A -> A) l : Forall (fun c => f c = c) l -> map f l = l.
Proof. induction 1 as [|x l H _ IH]; cbn; [reflexivity|]. rewrite H, IH. reflexivity. Qed.

Lemma replaced c : (32 <= c < 128)%N -> (if ((c =? 9) || (c =? 10) || (c =? 13))%N then 32%N else c) = c.
Proof.
  intros H. destruct (N.eqb_spec c 9); [lia|]. destruct (N.eqb_spec c 10); [lia|]. destruct (N.eqb_spec c 13); [lia|]. reflexivity.
Qed.
Lemma replaced_xml c : (32 <= c < 128)%N -> (if xml_ws c then 32%N else c) = c.
Proof.
  intros H. destruct (N.eqb_spec c 32) as [->|N]; [reflexivity|]. rewrite visible_xml by lia. reflexivity.
Qed.

Lemma clear_normalized w dg t : clear_text dg t -> normalized w t = t.
Proof.
  intros (l & -> & H). apply clear_ok in H. destruct w; cbn.
  - reflexivity.
  - unfold whitespace_replace. apply map_same. pose proof (ok_chars l H) as HC. revert HC. apply Forall_impl. exact replaced.
  - rewrite clear_collapse by exact H. apply clear_trim, H.
Qed.

Lemma clear_normalizes w dg t s : clear_text dg t -> (normalizes w t s <-> s = t).
Proof.
  intros (l & -> & H). apply clear_ok in H.
  pose proof (ok_of_words xml_ws l eq_refl visible_xml H) as HW. destruct w; cbn.
  - reflexivity.
  - rewrite map_same; [reflexivity|]. pose proof (ok_chars l H) as HC. revert HC. apply Forall_impl. exact replaced_xml.
  - split.
    + intros (l' & H' & ->). rewrite (words_unique _ _ _ _ H' HW). reflexivity.
    + intros ->. exists l. split; [exact HW|reflexivity].
Qed.

Lemma ascii_first l : l <> [] -> Forall word_ok l -> exists c r, join_blank l = c :: r /\ ascii_ws c = false.
Proof.
  destruct l as [|w l]; intros HN H; [elim HN; reflexivity|]. apply Forall_inv in H as [Hw H].
  destruct w as [|c w]; [elim Hw; reflexivity|]. apply Forall_inv in H. apply visible_ascii in H.
  destruct l as [|w' l].
  - exists c, w. auto.
  - exists c, (w ++ 32%N :: join_blank (w' :: l)). auto.
Qed.
Lemma ascii_last l : l <> [] -> Forall word_ok l -> exists c r, join_blank l = r ++ [c] /\ ascii_ws c = false.
Proof.
  induction l as [|w l IH]; intros HN H; [elim HN; reflexivity|]. clear HN.
  inversion_clear H as [|x y [Hw HF] H0]. destruct l as [|w' l].
  - cbn [join_blank]. destruct (exists_last Hw) as (r & c & ->). exists c, r. split; [reflexivity|].
    apply Forall_app in HF as [_ HF]. apply Forall_inv in HF. apply visible_ascii, HF.
  - destruct IH as (c & r & E & Hc); [discriminate|exact H0|].
    change (join_blank (w :: w' :: l)) with (w ++ 32%N :: join_blank (w' :: l)). rewrite E.
    exists c, (w ++ 32%N :: r). split; [|exact Hc]. rewrite <- app_assoc. reflexivity.
Qed.
Lemma ascii_start_id c s : ascii_ws c = false -> ascii_trim_start (c :: s) = c :: s.
Proof. intros H. cbn. rewrite H. reflexivity. Qed.

Lemma split_word w s : Forall (fun c => (32 < c < 128)%N) w ->
  split_items (w ++ s) = match split_items s with x :: l => (w ++ x) :: l | [] => [w] end.
Proof.
  induction w as [|c w IH]; intros H; cbn.
  - destruct s as [|c s]; [reflexivity|]. cbn. destruct (item_sep c); [reflexivity|]. destruct (split_items s); reflexivity.
  - inversion_clear H. rewrite visible_sep by assumption. rewrite IH by assumption. destruct (split_items s); reflexivity.
Qed.

Lemma clear_items l : Forall word_ok l -> list_items (join_blank l) = l.
Proof.
  intros H. destruct l as [|w l]; [reflexivity|].
  assert (HT : ascii_trim (join_blank (w :: l)) = join_blank (w :: l)).
  { destruct (ascii_first (w :: l)) as (c & r & Ec & Hc); [discriminate|exact H|].
    destruct (ascii_last (w :: l)) as (c' & r' & Ec' & Hc'); [discriminate|exact H|].
    unfold ascii_trim. rewrite Ec at 1. rewrite ascii_start_id by exact Hc. rewrite <- Ec, Ec', rev_app_distr. cbn [rev app].
    rewrite ascii_start_id by exact Hc'. cbn [rev]. rewrite rev_involutive. reflexivity. }
  unfold list_items. rewrite HT.
  destruct (ascii_first (w :: l)) as (c & r & Ec & Hc); [discriminate|exact H|].
  rewrite Ec, <- Ec. clear HT Ec Hc c r.
  revert w H. induction l as [|w' l IH]; intros w H; inversion_clear H as [|x y [Hw HF] H0].
  - cbn [join_blank]. rewrite <- (app_nil_r w) at 1. rewrite split_word by exact HF. cbn. rewrite app_nil_r. reflexivity.
  - change (join_blank (w :: w' :: l)) with (w ++ 32%N :: join_blank (w' :: l)).
    rewrite split_word by exact HF. cbn [split_items item_sep]. rewrite (IH w' H0). cbn. rewrite app_nil_r. reflexivity.
Qed.

Lemma word_text dg w : clear_word dg w -> clear_text dg w.
Proof. intros H. exists [w]. split; [reflexivity|]. constructor; [exact H|constructor]. Qed.

(** A number is one word. *)
Lemma decimal_word s g ip fp dot : decimal_literal s g ip fp dot -> ~ In 32%N s /\ s <> [].
Proof.
  intros (-> & H1 & H2 & _ & H3). split.
  - intros H. apply in_app_or in H as [H|H].
    + destruct g; cbn in H; intuition discriminate.
    + unfold digits in *. rewrite Forall_forall in H1, H2. apply in_app_or in H as [H|H].
      * apply H1 in H. lia.
      * apply in_app_or in H as [H|H]; [|apply H2 in H; lia]. destruct dot; cbn in H; intuition discriminate.
  - intros H. apply app_eq_nil in H as [_ H]. apply app_eq_nil in H as [Hi H]. apply app_eq_nil in H as [_ Hf].
    destruct H3; congruence.
Qed.
Lemma clear_canonical t : clear_text true t -> canonical t.
Proof.
  intros (l & -> & H). intros g ip fp dot HD. pose proof (decimal_word _ _ _ _ _ HD) as [H32 HN].
  destruct l as [|w [|w' l]].
  - elim HN. reflexivity.
  - apply Forall_inv in H as (_ & _ & HC). apply (HC eq_refl _ _ _ _ HD).
  - elim H32. change (join_blank (w :: w' :: l)) with (w ++ 32%N :: join_blank (w' :: l)).
    apply in_or_app. right. left. reflexivity.
Qed.

Lemma total_exact t n : canonical t -> n <> 0 ->
  (total_digits t n = Ok tt <-> exists g ip fp dot i k, decimal_literal t g ip fp dot /\ denotes_decimal g ip fp i k /\ total_ok n i k).
Proof.
  intros HC Hn. split; [apply total_sound|].
  intros (g & ip & fp & dot & i & k & HL & HD & HT). destruct (HC _ _ _ _ HL) as (Hg & [[-> ->]|HI] & HF).
  - unfold total_digits. rewrite (rx_accepts t g [48%N] [] dot); [|destruct g; auto; elim Hg; reflexivity|discriminate|exact HL].
    destruct dot; cbn; (destruct n; [elim Hn; reflexivity|reflexivity]).
  - apply (total_complete t g ip fp dot i k n); assumption.
Qed.
Lemma fraction_exact t n : canonical t ->
  (fraction_digits t n = Ok tt <-> exists g ip fp dot i k, decimal_literal t g ip fp dot /\ denotes_decimal g ip fp i k /\ fraction_ok n i k).
Proof.
  intros HC. split; [apply fraction_sound|].
  intros (g & ip & fp & dot & i & k & HL & HD & HT). destruct (HC _ _ _ _ HL) as (Hg & HI & HF).
  apply (fraction_complete t g ip fp dot i k n); try assumption.
  destruct HI as [[-> _]|(c & r & -> & _)]; discriminate.
Qed.
