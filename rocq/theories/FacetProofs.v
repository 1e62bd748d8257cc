From Verif Require Import FacetModel FacetSpec.

(** ** White space *)

Lemma replace_length s : length (whitespace_replace s) = length s.
Proof. apply map_length. Qed.

Lemma replace_idem s : whitespace_replace (whitespace_replace s) = whitespace_replace s.
Proof.
  unfold whitespace_replace. rewrite map_map. apply map_ext. intros c.
  destruct ((c =? 9) || (c =? 10) || (c =? 13))%N eqn:E; [reflexivity|]. rewrite E. reflexivity.
Qed.

(** Every string splits into words. *)
Lemma words_total ws s : exists l, words_of ws l s.
Proof.
  assert (H : exists a l w r, s = a ++ w ++ r /\ forallb ws a = true /\
              forallb (fun c => negb (ws c)) w = true /\
              match r with [] => True | c :: _ => ws c = true end /\
              (w = [] -> r = []) /\ words_of ws l r).
  { induction s as [|c s (a & l & w & r & -> & Ha & Hw & Hr & Hn & HW)].
    - exists [], [], [], []. repeat split. apply wo_blank. reflexivity.
    - destruct (ws c) eqn:E.
      + exists (c :: a), l, w, r. repeat split; try assumption. cbn. rewrite E. exact Ha.
      + destruct a as [|d a].
        * exists [], l, (c :: w), r. repeat split; try assumption; [|discriminate].
          cbn. rewrite E. exact Hw.
        * cbn in Ha. apply andb_prop in Ha as [Hd Ha].
          destruct w as [|e w].
          -- rewrite (Hn eq_refl). cbn. exists [], [], [c], (d :: a ++ []).
             repeat split; [cbn; rewrite E; reflexivity|exact Hd|discriminate|].
             apply wo_blank. cbn. rewrite Hd, app_nil_r. exact Ha.
          -- exists [], ((e :: w) :: l), [c], ((d :: a) ++ (e :: w) ++ r).
             repeat split; [cbn; rewrite E; reflexivity|exact Hd|discriminate|].
             apply wo_word; [cbn; rewrite Hd; exact Ha|discriminate|exact Hw|exact Hr|exact HW]. }
  destruct H as (a & l & w & r & -> & Ha & Hw & Hr & Hn & HW).
  destruct w as [|c w].
  - exists []. rewrite (Hn eq_refl). apply wo_blank. cbn. rewrite app_nil_r. exact Ha.
  - exists ((c :: w) :: l). apply wo_word; try assumption. discriminate.
Qed.

Lemma runs_blank a : forallb unicode_ws a = true -> forall b s,
  replace_runs b (a ++ s) = match a with [] => replace_runs b s | _ => (if b then [] else [32%N]) ++ replace_runs true s end.
Proof.
  induction a as [|c a IH]; intros H b s; [reflexivity|]. cbn in H. apply andb_prop in H as [Hc Ha].
  cbn [app replace_runs]. rewrite Hc. f_equal. rewrite (IH Ha true s). destruct a; reflexivity.
Qed.

Lemma runs_word w : forallb (fun c => negb (unicode_ws c)) w = true -> forall b s,
  replace_runs b (w ++ s) = w ++ replace_runs (match w with [] => b | _ => false end) s.
Proof.
  induction w as [|c w IH]; intros H b s; [reflexivity|]. cbn in H. apply andb_prop in H as [Hc Hw].
  apply Bool.negb_true_iff in Hc. cbn [app replace_runs]. rewrite Hc, (IH Hw false s).
  destruct w; reflexivity.
Qed.

(** The result of the replacement: the words, separated by single blanks, with a
    blank at the front or the back where the string had white space. *)
Lemma runs_words l s : words_of unicode_ws l s -> l <> [] ->
  forall b, exists p q, replace_runs b s = p ++ join_blank l ++ q /\
    forallb unicode_ws p = true /\ forallb unicode_ws q = true /\
    (b = false -> match s with c :: _ => unicode_ws c = true | [] => True end -> p = [32%N]) /\
    (b = true -> p = []).
Proof.
  induction 1 as [s H|a w s l Ha Hw0 Hw Hs H IH]; intros HN b; [elim HN; reflexivity|]. clear HN.
  rewrite (runs_blank a Ha).
  assert (EW : forall b, replace_runs b (w ++ s) = w ++ replace_runs false s).
  { intros b'. rewrite (runs_word w Hw b' s). destruct w; [elim Hw0; reflexivity|reflexivity]. }
  assert (HT : exists q, replace_runs false s = (match l with [] => q | _ => 32%N :: join_blank l ++ q end) /\
                         forallb unicode_ws q = true).
  { destruct H as [s H|a' w' s l Ha' Hw0' Hw' Hs' H].
    - exists (replace_runs false s). split; [reflexivity|].
      rewrite <- (app_nil_r s), (runs_blank s H). destruct s; reflexivity.
    - destruct (IH ltac:(discriminate) false) as (p & q & E & Hp & Hq & H1 & _).
      exists q. split; [|exact Hq]. rewrite E, (H1 eq_refl Hs). reflexivity. }
  destruct HT as (q & ET & Hq).
  assert (EJ : w ++ replace_runs false s = join_blank (w :: l) ++ q).
  { rewrite ET. destruct l as [|w' l]; [reflexivity|].
    change (join_blank (w :: w' :: l)) with (w ++ 32%N :: join_blank (w' :: l)).
    rewrite <- app_assoc. reflexivity. }
  destruct a as [|c a].
  - exists [], q. rewrite EW, EJ. cbn [app]. repeat split; try reflexivity; try assumption.
    intros _ Hc. destruct w as [|d w]; [elim Hw0; reflexivity|]. cbn in Hc, Hw.
    rewrite Hc in Hw. discriminate.
  - exists (if b then [] else [32%N]), q. rewrite EW, EJ. destruct b; repeat split; try reflexivity; try assumption.
    + discriminate.
    + discriminate.
Qed.

Lemma trim_start_blank p s : forallb unicode_ws p = true -> str_trim_start (p ++ s) = str_trim_start s.
Proof.
  induction p as [|c p IH]; intros H; [reflexivity|]. cbn in H. apply andb_prop in H as [Hc Hp].
  cbn. rewrite Hc. apply IH, Hp.
Qed.
Lemma trim_start_id c s : unicode_ws c = false -> str_trim_start (c :: s) = c :: s.
Proof. intros H. cbn. rewrite H. reflexivity. Qed.

Lemma words_not_empty ws l s : words_of ws l s -> Forall (fun w => w <> [] /\ forallb (fun c => negb (ws c)) w = true) l.
Proof. induction 1; constructor; auto. Qed.

Lemma join_first l : l <> [] -> Forall (fun w => w <> [] /\ forallb (fun c => negb (unicode_ws c)) w = true) l ->
  exists c r, join_blank l = c :: r /\ unicode_ws c = false.
Proof.
  destruct l as [|w l]; intros HN H; [elim HN; reflexivity|]. apply Forall_inv in H as [Hw H].
  destruct w as [|c w]; [elim Hw; reflexivity|]. cbn in H. apply andb_prop in H as [H _].
  apply Bool.negb_true_iff in H. destruct l as [|w' l].
  - exists c, w. auto.
  - exists c, (w ++ 32%N :: join_blank (w' :: l)). auto.
Qed.
Lemma join_last l : l <> [] -> Forall (fun w => w <> [] /\ forallb (fun c => negb (unicode_ws c)) w = true) l ->
  exists c r, join_blank l = r ++ [c] /\ unicode_ws c = false.
Proof.
  induction l as [|w l IH]; intros HN H; [elim HN; reflexivity|]. clear HN.
  inversion_clear H as [|x y [Hw HF] H0]. destruct l as [|w' l].
  - cbn [join_blank]. destruct (exists_last Hw) as (r & c & ->). exists c, r. split; [reflexivity|].
    rewrite forallb_app in HF. apply andb_prop in HF as [_ HF]. cbn in HF.
    rewrite andb_true_r in HF. apply Bool.negb_true_iff in HF. exact HF.
  - destruct IH as (c & r & E & Hc); [discriminate|exact H0|].
    change (join_blank (w :: w' :: l)) with (w ++ 32%N :: join_blank (w' :: l)). rewrite E.
    exists c, (w ++ 32%N :: r). split; [|exact Hc]. rewrite <- app_assoc. reflexivity.
Qed.

Lemma forallb_rev {A} (f : A -> bool) l : forallb f (rev l) = forallb f l.
Proof.
  induction l as [|x l IH]; cbn; [reflexivity|]. rewrite forallb_app, IH. cbn.
  rewrite andb_true_r. apply andb_comm.
Qed.

Lemma collapse_words l s : words_of unicode_ws l s -> whitespace_collapse s = join_blank l.
Proof.
  intros H. unfold whitespace_collapse, str_trim. destruct l as [|w l].
  - inversion_clear H. rewrite <- (app_nil_r s), (runs_blank s H0).
    destruct s; reflexivity.
  - destruct (runs_words _ s H ltac:(discriminate) false) as (p & q & E & Hp & Hq & _). rewrite E.
    pose proof (words_not_empty _ _ _ H) as HF.
    destruct (join_first (w :: l)) as (c & r & Ec & Hc); [discriminate|exact HF|].
    destruct (join_last (w :: l)) as (c' & r' & Ec' & Hc'); [discriminate|exact HF|].
    rewrite trim_start_blank by exact Hp. rewrite Ec. cbn [app]. rewrite trim_start_id by exact Hc.
    rewrite app_comm_cons, <- Ec, rev_app_distr, trim_start_blank by (rewrite forallb_rev; exact Hq).
    rewrite Ec', rev_app_distr. cbn [rev app]. rewrite trim_start_id by exact Hc'. cbn [rev].
    rewrite rev_involutive. reflexivity.
Qed.

Lemma words_cons_ws ws l s c : ws c = true -> words_of ws l s -> words_of ws l (c :: s).
Proof.
  intros Hc H. destruct H as [s H|a w s l Ha Hw0 Hw Hs H].
  - apply wo_blank. cbn. rewrite Hc. exact H.
  - rewrite app_comm_cons. apply wo_word; try assumption. cbn. rewrite Hc. exact Ha.
Qed.

Lemma join_words ws l : ws 32%N = true -> Forall (fun w => w <> [] /\ forallb (fun c => negb (ws c)) w = true) l ->
  words_of ws l (join_blank l).
Proof.
  intros H32. induction l as [|w l IH]; intros H.
  - apply wo_blank. reflexivity.
  - inversion_clear H as [|x y [Hw HF] H0]. destruct l as [|w' l].
    + cbn [join_blank]. rewrite <- (app_nil_r w) at 2. change (w ++ []) with ([] ++ w ++ []).
      apply wo_word; try assumption; [reflexivity|exact I|apply wo_blank; reflexivity].
    + change (join_blank (w :: w' :: l)) with ([] ++ w ++ 32%N :: join_blank (w' :: l)).
      apply wo_word; try assumption; [reflexivity|].
      apply words_cons_ws; [exact H32|apply IH, H0].
Qed.

Lemma collapse_idem s : whitespace_collapse (whitespace_collapse s) = whitespace_collapse s.
Proof.
  destruct (words_total unicode_ws s) as (l & H). rewrite (collapse_words l s H).
  apply collapse_words, join_words; [reflexivity|apply (words_not_empty _ _ _ H)].
Qed.

Lemma words_ext ws1 ws2 l s : (forall c, In c s -> ws1 c = ws2 c) -> words_of ws1 l s -> words_of ws2 l s.
Proof.
  intros HE H. induction H as [s H|a w s l Ha Hw0 Hw Hs H IH].
  - apply wo_blank. rewrite forallb_forall in *. intros c Hc. rewrite <- HE by exact Hc. apply H, Hc.
  - rewrite forallb_forall in Ha, Hw. apply wo_word.
    + apply forallb_forall. intros c Hc. rewrite <- HE; [apply Ha, Hc|apply in_or_app; left; exact Hc].
    + exact Hw0.
    + apply forallb_forall. intros c Hc. rewrite <- HE; [apply Hw, Hc|].
      apply in_or_app. right. apply in_or_app. left. exact Hc.
    + destruct s as [|c s]; [exact I|]. rewrite <- HE; [exact Hs|].
      apply in_or_app. right. apply in_or_app. right. left. reflexivity.
    + apply IH. intros c Hc. apply HE. apply in_or_app. right. apply in_or_app. right. exact Hc.
Qed.

(** ** Digits *)

Lemma is_digit_spec c : is_digit c = true <-> (48 <= c <= 57)%N.
Proof. unfold is_digit. rewrite andb_true_iff, !N.leb_le. reflexivity. Qed.

Lemma take_digits_spec s d r : take_digits s = (d, r) ->
  s = d ++ r /\ digits d /\ match r with [] => True | c :: _ => is_digit c = false end.
Proof.
  revert d r. induction s as [|c s IH]; intros d r H; cbn in H.
  - injection H as <- <-. repeat split. constructor.
  - destruct (is_digit c) eqn:E.
    + destruct (take_digits s) as [d' r'] eqn:ET. injection H as <- <-.
      destruct (IH d' r' eq_refl) as (-> & HD & HR). repeat split; [|exact HR].
      constructor; [apply is_digit_spec, E|exact HD].
    + injection H as <- <-. repeat split; [constructor|exact E].
Qed.

Lemma take_digits_app d r : digits d -> match r with [] => True | c :: _ => is_digit c = false end ->
  take_digits (d ++ r) = (d, r).
Proof.
  intros HD HR. induction HD as [|c d Hc HD IH]; cbn.
  - destruct r as [|c r]; [reflexivity|]. cbn. rewrite HR. reflexivity.
  - rewrite (proj2 (is_digit_spec c) Hc), IH. reflexivity.
Qed.

Lemma rx_decimal_spec s a b : rx_decimal s = Some (a, b) <->
  exists g fp dot, (g = Minus \/ g = NoSign) /\ a <> [] /\ decimal_literal s g a fp dot /\
    b = (if dot then Some fp else None).
Proof.
  unfold rx_decimal. split.
  - set (s1 := match s with c :: s' => if (c =? 45)%N then s' else s | [] => s end).
    assert (HS : exists g, (g = Minus \/ g = NoSign) /\ s = sign_text g ++ s1).
    { unfold s1. destruct s as [|c s]; [exists NoSign; auto|].
      destruct (N.eqb_spec c 45) as [->|]; [exists Minus|exists NoSign]; auto. }
    destruct HS as (g & Hg & Es). destruct (take_digits s1) as [ip r] eqn:E1.
    apply take_digits_spec in E1 as (E1 & HD & HR).
    destruct ip as [|d ip]; [discriminate|]. destruct r as [|c r].
    + intros H. injection H as <- <-. exists g, [], false. split; [exact Hg|]. split; [discriminate|].
      split; [|reflexivity]. split; [rewrite Es, E1; reflexivity|].
      split; [exact HD|]. split; [constructor|]. split; [reflexivity|left; discriminate].
    + destruct (N.eqb_spec c 46) as [->|]; [|discriminate].
      destruct (take_digits r) as [fp r2] eqn:E2. apply take_digits_spec in E2 as (E2 & HD2 & _).
      destruct r2; [|discriminate]. intros H. injection H as <- <-. exists g, fp, true.
      split; [exact Hg|]. split; [discriminate|]. split; [|reflexivity].
      split; [rewrite Es, E1, E2, app_nil_r; reflexivity|].
      split; [exact HD|]. split; [exact HD2|]. split; [discriminate|left; discriminate].
  - intros (g & fp & dot & Hg & Ha & (-> & HD & HF & Hdot & _) & ->).
    set (t := a ++ (if dot then [46%N] else []) ++ fp).
    assert (E : (match sign_text g ++ t with c :: s' => if (c =? 45)%N then s' else sign_text g ++ t | [] => sign_text g ++ t end) = t).
    { destruct Hg as [-> | ->]; [reflexivity|]. cbn [sign_text app]. unfold t.
      destruct a as [|c a]; [elim Ha; reflexivity|]. cbn [app]. inversion_clear HD.
      destruct (N.eqb_spec c 45); [lia|reflexivity]. }
    rewrite E. unfold t. destruct dot; cbn [app].
    + rewrite (take_digits_app a (46%N :: fp) HD eq_refl). destruct a; [elim Ha; reflexivity|].
      cbn [N.eqb Pos.eqb]. rewrite <- (app_nil_r fp) at 1. rewrite (take_digits_app fp [] HF I). reflexivity.
    + rewrite (Hdot eq_refl), (take_digits_app a [] HD I). destruct a; [elim Ha; reflexivity|reflexivity].
Qed.

Lemma pow10_pos n : (0 < pow10 n)%Z.
Proof. unfold pow10. apply Z.pow_pos_nonneg; lia. Qed.
Lemma pow10_add a b : pow10 (a + b) = (pow10 a * pow10 b)%Z.
Proof. unfold pow10. rewrite Nat2Z.inj_add. apply Z.pow_add_r; lia. Qed.
Lemma pow10_le a b : a <= b -> (pow10 a <= pow10 b)%Z.
Proof. intros H. unfold pow10. apply Z.pow_le_mono_r; lia. Qed.
Lemma pow10_lt a b : (pow10 a < pow10 b)%Z -> a < b.
Proof.
  intros H. destruct (Nat.lt_ge_cases a b) as [|G]; [assumption|]. apply pow10_le in G. lia.
Qed.
Lemma pow10_S n : pow10 (S n) = (10 * pow10 n)%Z.
Proof. change (S n) with (1 + n). rewrite pow10_add. reflexivity. Qed.

Lemma value_fold s : forall v, fold_left (fun v c => 10 * v + digit_value c)%Z s v = (v * pow10 (length s) + digits_value s)%Z.
Proof.
  unfold digits_value. induction s as [|c s IH]; intros v; cbn [fold_left length].
  - unfold pow10. cbn. lia.
  - rewrite IH, (IH (10 * 0 + digit_value c)%Z), pow10_S. lia.
Qed.

Lemma value_cons c s : digits_value (c :: s) = (digit_value c * pow10 (length s) + digits_value s)%Z.
Proof. unfold digits_value at 1. cbn [fold_left]. rewrite value_fold. lia. Qed.
Lemma value_snoc s c : digits_value (s ++ [c]) = (10 * digits_value s + digit_value c)%Z.
Proof. unfold digits_value. rewrite fold_left_app. reflexivity. Qed.

Lemma value_range s : digits s -> (0 <= digits_value s < pow10 (length s))%Z.
Proof.
  induction 1 as [|c s Hc HD IH].
  - unfold pow10. cbn. lia.
  - rewrite value_cons. cbn [length]. rewrite pow10_S. unfold digit_value. pose proof (pow10_pos (length s)).
    assert (0 <= Z.of_N c - 48 <= 9)%Z by lia. nia.
Qed.

Lemma value_lower c s : digits (c :: s) -> c <> 48%N -> (pow10 (length s) <= digits_value (c :: s))%Z.
Proof.
  intros H Hn. inversion_clear H. rewrite value_cons. pose proof (value_range s H1). pose proof (pow10_pos (length s)).
  assert (1 <= digit_value c)%Z by (unfold digit_value; lia). nia.
Qed.

Definition unsign (g : sign) : Z := match g with Minus => -1 | _ => 1 end.

Lemma total_sound s t : total_digits s t = Ok tt ->
  exists g ip fp dot i n, decimal_literal s g ip fp dot /\ denotes_decimal g ip fp i n /\ total_ok t i n.
Proof.
  unfold total_digits. destruct (rx_decimal s) as [[a b]|] eqn:E; [|discriminate].
  apply rx_decimal_spec in E as (g & fp & dot & Hg & Ha & HL & ->).
  set (actual := match (if dot then Some fp else None) with None => _ | Some _ => _ end).
  destruct (Nat.leb actual t) eqn:EL; [|discriminate]. apply Nat.leb_le in EL. intros _.
  assert (HA : length a + length fp <= t).
  { unfold actual in EL. destruct dot; [exact EL|]. destruct HL as (_ & _ & _ & Hd & _). rewrite (Hd eq_refl). cbn. lia. }
  exists g, a, fp, dot, (unsign g * digits_value (a ++ fp))%Z, (length fp).
  split; [exact HL|]. split; [split; reflexivity|].
  exists (unsign g * digits_value (a ++ fp))%Z, (length fp). split; [reflexivity|]. split; [|lia].
  destruct HL as (_ & HD & HF & _).
  pose proof (value_range (a ++ fp) (proj2 (Forall_app _ _ _) (conj HD HF))) as HV.
  rewrite app_length in HV. pose proof (pow10_le _ _ HA).
  destruct g; unfold unsign; lia.
Qed.

Lemma fraction_sound s f : fraction_digits s f = Ok tt ->
  exists g ip fp dot i n, decimal_literal s g ip fp dot /\ denotes_decimal g ip fp i n /\ fraction_ok f i n.
Proof.
  unfold fraction_digits. destruct (rx_decimal s) as [[a b]|] eqn:E; [|discriminate].
  apply rx_decimal_spec in E as (g & fp & dot & Hg & Ha & HL & ->).
  set (actual := match (if dot then Some fp else None) with None => _ | Some _ => _ end).
  destruct (Nat.leb actual f) eqn:EL; [|discriminate]. apply Nat.leb_le in EL. intros _.
  assert (HA : length fp <= f).
  { unfold actual in EL. destruct dot; [exact EL|]. destruct HL as (_ & _ & _ & Hd & _). rewrite (Hd eq_refl). cbn. lia. }
  exists g, a, fp, dot, (unsign g * digits_value (a ++ fp))%Z, (length fp).
  split; [exact HL|]. split; [split; reflexivity|].
  exists (unsign g * digits_value (a ++ fp) * pow10 (f - length fp))%Z.
  replace f with (f - length fp + length fp) at 1 by lia. rewrite pow10_add. lia.
Qed.

(** A literal without a redundant zero at the end of its fraction. *)
Lemma fraction_needed g ip fp i n f : digits fp -> (forall r c, fp = r ++ [c] -> c <> 48%N) ->
  denotes_decimal g ip fp i n -> fraction_ok f i n -> n <= f.
Proof.
  intros HD HZ (Hi & Hn) (j & Hj). destruct (Nat.le_gt_cases n f) as [|G]; [assumption|exfalso].
  destruct fp as [|x fp] using rev_ind; [cbn in Hn; lia|]. clear IHfp.
  specialize (HZ fp x eq_refl). apply Forall_app in HD as [_ HD]. inversion_clear HD.
  replace n with (n - f + f) in Hj by lia. rewrite pow10_add in Hj.
  assert (E : (i = j * pow10 (n - f))%Z).
  { pose proof (pow10_pos f). nia. }
  replace (n - f) with (S (n - f - 1)) in E by lia. rewrite pow10_S in E.
  rewrite app_assoc, value_snoc in Hi. unfold digit_value in Hi.
  assert (1 <= Z.of_N x - 48 <= 9)%Z by lia.
  set (u := (j * pow10 (n - f - 1))%Z) in *. assert (E' : (i = 10 * u)%Z) by (unfold u; lia).
  destruct g; lia.
Qed.

Lemma rx_accepts s g ip fp dot : (g = Minus \/ g = NoSign) -> ip <> [] -> decimal_literal s g ip fp dot ->
  rx_decimal s = Some (ip, if dot then Some fp else None).
Proof. intros Hg Ha HL. apply rx_decimal_spec. exists g, fp, dot. auto. Qed.

Lemma fraction_complete s g ip fp dot i n f :
  decimal_literal s g ip fp dot -> denotes_decimal g ip fp i n ->
  g <> Plus -> ip <> [] -> (forall r c, fp = r ++ [c] -> c <> 48%N) ->
  fraction_ok f i n -> fraction_digits s f = Ok tt.
Proof.
  intros HL HD Hg Ha HZ HF. unfold fraction_digits.
  rewrite (rx_accepts s g ip fp dot); [|destruct g; auto; elim Hg; reflexivity|exact Ha|exact HL].
  destruct HL as (_ & _ & H2 & Hdot & _).
  pose proof (fraction_needed g ip fp i n f H2 HZ HD HF) as HN. destruct HD as [_ ->].
  destruct dot.
  - rewrite (proj2 (Nat.leb_le _ _) HN). reflexivity.
  - reflexivity.
Qed.

Lemma total_complete s g ip fp dot i n t :
  decimal_literal s g ip fp dot -> denotes_decimal g ip fp i n ->
  g <> Plus -> (exists c r, ip = c :: r /\ c <> 48%N) -> (forall r c, fp = r ++ [c] -> c <> 48%N) ->
  total_ok t i n -> total_digits s t = Ok tt.
Proof.
  intros HL HD Hg (c & r & Hip & Hc) HZ (j & m & Hj & HT & Hm). unfold total_digits.
  rewrite (rx_accepts s g ip fp dot); [|destruct g; auto; elim Hg; reflexivity|subst ip; discriminate|exact HL].
  destruct HL as (_ & H1 & H2 & Hdot & _).
  assert (HN : n <= m).
  { apply (fraction_needed g ip fp i n m H2 HZ HD). exists j. exact Hj. }
  destruct HD as [Hi ->].
  assert (HJ : (j = i * pow10 (m - length fp))%Z).
  { replace m with (m - length fp + length fp) in Hj by lia. rewrite pow10_add in Hj.
    pose proof (pow10_pos (length fp)). nia. }
  assert (HLo : (pow10 (length r + length fp) <= Z.abs i)%Z).
  { pose proof (value_lower c (r ++ fp)) as V. rewrite app_length in V.
    rewrite Hi, Hip. cbn [app]. assert (D : digits (c :: r ++ fp)).
    { rewrite app_comm_cons. apply Forall_app. subst ip. split; assumption. }
    specialize (V D Hc). pose proof (pow10_pos (length r + length fp)). destruct g; lia. }
  assert (HB : length ip + length fp <= t).
  { subst ip. cbn [length].
    pose proof (pow10_pos (m - length fp)) as P. rewrite HJ, Z.abs_mul, (Z.abs_eq (pow10 _)) in HT by lia.
    pose proof (Z.abs_nonneg i). 
    assert (B : (pow10 (length r + length fp) < pow10 t)%Z) by nia. apply pow10_lt in B. lia. }
  destruct dot.
  - rewrite (proj2 (Nat.leb_le _ _) HB). reflexivity.
  - rewrite (Hdot eq_refl) in HB. cbn in HB. rewrite (proj2 (Nat.leb_le _ t)) by lia. reflexivity.
Qed.
