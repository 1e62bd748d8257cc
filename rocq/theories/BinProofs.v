From Verif Require Import BinModel BinSpec.
Local Open Scope string_scope.

Lemma digit_back x : hex_digit (lower_digit x) = Some x /\ hex_digit (upper_digit x) = Some x.
Proof. destruct x as [[[[] []] []] []]; split; reflexivity. Qed.

Lemma byte_back c : byte_of (high c) (low c) = c.
Proof. destruct c; reflexivity. Qed.

Lemma byte_high x y : high (byte_of x y) = x /\ low (byte_of x y) = y.
Proof. destruct x as [[[? ?] ?] ?], y as [[[? ?] ?] ?]; split; reflexivity. Qed.

Lemma byte_value x y : nat_of_ascii (byte_of x y) = 16 * nibble_value x + nibble_value y.
Proof.
  destruct x as [[[a b] c] d], y as [[[e f] g] h].
  destruct a, b, c, d, e, f, g, h; reflexivity.
Qed.

Lemma hexval_digit c : hexval c = match hex_digit c with Some x => Some (nibble_value x) | None => None end.
Proof. destruct c as [[] [] [] [] [] [] [] []]; vm_compute; reflexivity. Qed.

Lemma nibble_inj x y : nibble_value x = nibble_value y -> x = y.
Proof.
  destruct x as [[[a b] c] d], y as [[[e f] g] h].
  destruct a, b, c, d, e, f, g, h; cbn; intros H; first [reflexivity|discriminate H].
Qed.

Lemma nat_ascii_inj a b : nat_of_ascii a = nat_of_ascii b -> a = b.
Proof. intros H. rewrite <- (ascii_nat_embedding a), <- (ascii_nat_embedding b), H. reflexivity. Qed.

Lemma lower_not_x x : lower_digit x <> "x"%char.
Proof. destruct x as [[[[] []] []] []]; intros H; discriminate H. Qed.

Lemma two_step (P : string -> Prop) :
  P "" -> (forall c, P (String c "")) -> (forall c d s, P s -> P (String c (String d s))) -> forall s, P s.
Proof.
  intros H0 H1 H2 s. enough (P s /\ forall c, P (String c s)) by tauto.
  induction s as [|c s [IH1 IH2]]; split; auto.
Qed.

Lemma hex_raw_text s b : hex_decode_raw s = Some b <-> hex_text s b.
Proof.
  split.
  - revert b. induction s as [|c|c d s IH] using two_step; cbn; intros b H.
    + injection H as <-. constructor.
    + discriminate.
    + destruct (hex_digit c) as [x|] eqn:E1; [|discriminate].
      destruct (hex_digit d) as [y|] eqn:E2; [|discriminate].
      destruct (hex_decode_raw s) as [b'|]; [|discriminate]. injection H as <-.
      apply hex_cons with (x := nibble_value x) (y := nibble_value y).
      * rewrite hexval_digit, E1. reflexivity.
      * rewrite hexval_digit, E2. reflexivity.
      * apply byte_value.
      * apply IH. reflexivity.
  - induction 1 as [|c d s x y o b Hc Hd Ho _ IH]; cbn; [reflexivity|].
    rewrite hexval_digit in Hc, Hd.
    destruct (hex_digit c) as [u|]; [|discriminate]. destruct (hex_digit d) as [v|]; [|discriminate].
    injection Hc as <-. injection Hd as <-. rewrite IH. repeat f_equal.
    apply nat_ascii_inj. rewrite byte_value. symmetry. exact Ho.
Qed.

Lemma hex_text_no_prefix s b : hex_text s b -> strip_0x s = s.
Proof.
  intros H. destruct H as [|c d s x y o b _ Hd _ _]; [reflexivity|].
  assert (E : d <> "x"%char) by (intros ->; discriminate Hd).
  destruct c as [[] [] [] [] [] [] [] []]; try reflexivity.
  destruct d as [[] [] [] [] [] [] [] []]; try reflexivity. elim E; reflexivity.
Qed.

Lemma strip_cases s : strip_0x s = s \/ s = "0x" ++ strip_0x s.
Proof.
  destruct s as [|c s]; [left; reflexivity|]. destruct s as [|d s].
  - left. destruct c as [[] [] [] [] [] [] [] []]; reflexivity.
  - destruct c as [[] [] [] [] [] [] [] []]; try (left; reflexivity).
    destruct d as [[] [] [] [] [] [] [] []]; try (left; reflexivity). right. reflexivity.
Qed.

Lemma hex_read_spec s b :
  hex_binary_read s = Some b <-> hex_text s b \/ exists s', s = "0x" ++ s' /\ hex_text s' b.
Proof.
  unfold hex_binary_read, hex_decode. rewrite hex_raw_text. split.
  - intros H. destruct (strip_cases s) as [E|E].
    + left. rewrite <- E. exact H.
    + right. exists (strip_0x s). auto.
  - intros [H|(s' & -> & H)].
    + rewrite (hex_text_no_prefix s b H). exact H.
    + exact H.
Qed.

Lemma hex_write_text b : hex_text (hex_binary_write b) b.
Proof.
  apply hex_raw_text. unfold hex_binary_write. induction b as [|c b IH]; cbn; [reflexivity|].
  rewrite !(proj1 (digit_back _)), IH, byte_back. reflexivity.
Qed.

Lemma any_hex_write_text b : hex_text (any_hex_write b) b.
Proof.
  apply hex_raw_text. induction b as [|c b IH]; cbn; [reflexivity|].
  rewrite !(proj2 (digit_back _)), IH, byte_back. reflexivity.
Qed.

Lemma hex_text_length s b : hex_text s b -> String.length s = 2 * String.length b.
Proof. induction 1; cbn [String.length]; lia. Qed.

(** any_simple_type *)

Lemma hex_digit_plus d x : hex_digit d = Some x -> Ascii.eqb d "+" = false /\ boundary (String d "") = true.
Proof. destruct d as [[] [] [] [] [] [] [] []]; intros H; first [split; reflexivity|discriminate H]. Qed.

Lemma boundary_head c s t : boundary (String c s) = boundary (String c t).
Proof. reflexivity. Qed.

Lemma any_hex_read_text s b : hex_text s b -> any_hex_read s = Ok b.
Proof.
  intros H. apply hex_raw_text in H. revert b H.
  induction s as [|c|c d s IH] using two_step; intros b H.
  - injection H as <-. reflexivity.
  - discriminate.
  - cbn [hex_decode_raw] in H.
    destruct (hex_digit c) as [x|] eqn:E1; [|discriminate].
    destruct (hex_digit d) as [y|] eqn:E2; [|discriminate].
    destruct (hex_decode_raw s) as [b'|] eqn:E; [|discriminate]. injection H as <-.
    cbn [any_hex_read]. rewrite (boundary_head c _ ""), (proj2 (hex_digit_plus c x E1)).
    assert (B : boundary s = true).
    { destruct s as [|c' [|d' s']]; [reflexivity|discriminate E|]. cbn [hex_decode_raw] in E.
      destruct (hex_digit c') as [x'|] eqn:E3; [|discriminate].
      rewrite (boundary_head c' _ ""). apply (hex_digit_plus c' x' E3). }
    rewrite B. cbn [andb]. unfold radix16. rewrite (proj1 (hex_digit_plus c x E1)), E1, E2.
    rewrite (IH b' eq_refl). reflexivity.
Qed.

(** ASCII texts of even length never panic. *)

Lemma ascii_boundary s : all_ascii s = true -> boundary s = true.
Proof.
  destruct s as [|c s]; [reflexivity|]. cbn [all_ascii]. intros H. apply andb_prop in H as [H _].
  apply Nat.ltb_lt in H. unfold boundary. apply Bool.negb_true_iff, Bool.andb_false_iff. left.
  apply Nat.leb_gt. exact H.
Qed.

Lemma any_hex_no_panic s : all_ascii s = true -> Nat.even (String.length s) = true -> any_hex_read s <> Panic.
Proof.
  induction s as [|c|c d s IH] using two_step; intros HA HE.
  - discriminate.
  - discriminate HE.
  - cbn [any_hex_read]. rewrite (ascii_boundary _ HA). cbn [all_ascii] in HA.
    apply andb_prop in HA as [_ HA]. apply andb_prop in HA as [_ HA].
    rewrite (ascii_boundary _ HA). cbn [andb]. destruct (radix16 c d); [|discriminate].
    specialize (IH HA HE). destruct (any_hex_read s); congruence.
Qed.

(** base64 *)

Lemma sextet_back x : b64_sextet (b64_char x) = Some x.
Proof. destruct x as [[[[[[] []] []] []] []] []]; vm_compute; reflexivity. Qed.

Lemma char_back c x : b64_sextet c = Some x -> b64_char x = c.
Proof. destruct c as [[] [] [] [] [] [] [] []]; vm_compute; intros H; first [discriminate H|injection H as <-; reflexivity]. Qed.

Lemma b64_char_eq x : Ascii.eqb (b64_char x) "=" = false.
Proof. destruct x as [[[[[[] []] []] []] []] []]; vm_compute; reflexivity. Qed.

Lemma by1_sx x y : by1 (sx1 x) (sx2 x y) = x.
Proof. destruct x, y; reflexivity. Qed.
Lemma by2_sx x y z : by2 (sx2 x y) (sx3 y z) = y.
Proof. destruct x, y, z; reflexivity. Qed.
Lemma by3_sx y z : by3 (sx3 y z) (sx4 z) = z.
Proof. destruct y, z; reflexivity. Qed.

Lemma sx_by (p q r t : sextet) :
  sx1 (by1 p q) = p /\ sx2 (by1 p q) (by2 q r) = q /\ sx3 (by2 q r) (by3 r t) = r /\ sx4 (by3 r t) = t.
Proof.
  destruct p as [[[[[? ?] ?] ?] ?] ?], q as [[[[[? ?] ?] ?] ?] ?], r as [[[[[? ?] ?] ?] ?] ?], t as [[[[[? ?] ?] ?] ?] ?].
  repeat split.
Qed.
Lemma sx_by_4 p q : rest4 q = false -> sx1 (by1 p q) = p /\ sx2 (by1 p q) "000" = q.
Proof.
  destruct p as [[[[[? ?] ?] ?] ?] ?], q as [[[[[? ?] c] d] e] f]. cbn.
  destruct c, d, e, f; intros H; try discriminate H. split; reflexivity.
Qed.
Lemma sx_by_2 p q r : rest2 r = false -> sx1 (by1 p q) = p /\ sx2 (by1 p q) (by2 q r) = q /\ sx3 (by2 q r) "000" = r.
Proof.
  destruct p as [[[[[? ?] ?] ?] ?] ?], q as [[[[[? ?] ?] ?] ?] ?], r as [[[[[? ?] ?] ?] e] f]. cbn.
  destruct e, f; intros H; try discriminate H. repeat split.
Qed.

Lemma three_step (P : string -> Prop) :
  P "" -> (forall c, P (String c "")) -> (forall c d, P (String c (String d ""))) ->
  (forall c d e s, P s -> P (String c (String d (String e s)))) -> forall s, P s.
Proof.
  intros H0 H1 H2 H3 s.
  enough (P s /\ (forall c, P (String c s)) /\ (forall c d, P (String c (String d s)))) by tauto.
  induction s as [|c s (IH1 & IH2 & IH3)]; repeat split; auto.
Qed.

Lemma four_step (P : string -> Prop) :
  P "" -> (forall c, P (String c "")) -> (forall c d, P (String c (String d ""))) ->
  (forall c d e, P (String c (String d (String e "")))) ->
  (forall c d e f s, P s -> P (String c (String d (String e (String f s))))) -> forall s, P s.
Proof.
  intros H0 H1 H2 H3 H4 s.
  enough (P s /\ (forall c, P (String c s)) /\ (forall c d, P (String c (String d s))) /\
          (forall c d e, P (String c (String d (String e s))))) by tauto.
  induction s as [|c s (IH1 & IH2 & IH3 & IH4)]; repeat split; auto.
Qed.

Lemma b64_decode_encode b : b64_decode (b64_encode b) = Some b.
Proof.
  induction b as [|x|x y|x y z b IH] using three_step.
  - reflexivity.
  - cbn [b64_encode b64_decode]. rewrite !sextet_back. cbn [Ascii.eqb Bool.eqb andb].
    destruct x as [? ? ? ? ? ? ? ?]. reflexivity.
  - cbn [b64_encode b64_decode]. rewrite !sextet_back, b64_char_eq. cbn [Ascii.eqb Bool.eqb andb].
    destruct x, y. reflexivity.
  - cbn [b64_encode b64_decode]. rewrite !sextet_back, !b64_char_eq. cbn [andb].
    rewrite IH, by1_sx, by2_sx, by3_sx. reflexivity.
Qed.

Lemma b64_encode_decode s b : b64_decode s = Some b -> b64_encode b = s.
Proof.
  revert b. induction s as [|c|c d|c d e|c d e f s IH] using four_step; intros b; cbn [b64_decode]; try discriminate.
  { intros H. injection H as <-. reflexivity. }
  destruct (b64_sextet c) as [p|] eqn:Ep; [|discriminate]. destruct (b64_sextet d) as [q|] eqn:Eq; [|discriminate].
  apply char_back in Ep, Eq.
  destruct (Ascii.eqb_spec e "="), (Ascii.eqb_spec f "="); cbn [andb].
  - subst e f. destruct s; [|discriminate]. destruct (rest4 q) eqn:E4; [discriminate|].
    intros H. injection H as <-. cbn [b64_encode]. destruct (sx_by_4 p q E4) as [-> ->]. rewrite Ep, Eq. reflexivity.
  - subst e. discriminate.
  - subst f. destruct (b64_sextet e) as [r|] eqn:Er; [|discriminate]. apply char_back in Er.
    destruct s; [|discriminate]. destruct (rest2 r) eqn:E2; [discriminate|].
    intros H. injection H as <-. cbn [b64_encode]. destruct (sx_by_2 p q r E2) as (-> & -> & ->).
    rewrite Ep, Eq, Er. reflexivity.
  - destruct (b64_sextet e) as [r|] eqn:Er; [|discriminate]. apply char_back in Er.
    destruct (b64_sextet f) as [t|] eqn:Et; [|discriminate]. apply char_back in Et.
    destruct (b64_decode s) as [l|]; [|discriminate].
    intros H. injection H as <-. cbn [b64_encode]. destruct (sx_by p q r t) as (-> & -> & -> & ->).
    rewrite Ep, Eq, Er, Et, (IH l eq_refl). reflexivity.
Qed.

Lemma b64_read_spec s b : base64_binary_read s = Some b <-> s = base64_binary_write b.
Proof.
  split.
  - intros H. symmetry. apply b64_encode_decode. exact H.
  - intros ->. apply b64_decode_encode.
Qed.

Definition sx_bits (x : sextet) : list bool :=
  match x with (f, e, d, c, b, a) => [f; e; d; c; b; a] end.

Lemma b64_value_bits x : exists n, base64_value (b64_char x) = Some n /\ bits_of 6 n = sx_bits x.
Proof.
  exists (sextet_value x). destruct x as [[[[[[] []] []] []] []] []]; vm_compute; split; reflexivity.
Qed.

Lemma char_bits_cons x s :
  char_bits (String (b64_char x) s) = match char_bits s with Some l => Some (sx_bits x ++ l)%list | None => None end.
Proof. cbn [char_bits]. destruct (b64_value_bits x) as (n & -> & ->). destruct (char_bits s); reflexivity. Qed.

Lemma octet_bits_cons c b :
  octet_bits (String c b) =
    (match c with Ascii a b c d e f g h => [h; g; f; e; d; c; b; a] end ++ octet_bits b)%list.
Proof. cbn [octet_bits]. f_equal. destruct c as [[] [] [] [] [] [] [] []]; reflexivity. Qed.

Lemma mod_cancel a b n : n <> 0 -> Nat.modulo a n = 0 -> Nat.modulo (a + b) n = Nat.modulo b n.
Proof. intros Hn H. rewrite Nat.add_mod, H, Nat.add_0_l, Nat.mod_mod by exact Hn. reflexivity. Qed.

Lemma b64_write_text b : base64_text (base64_binary_write b) b.
Proof.
  unfold base64_binary_write. induction b as [|x|x y|x y z b IH] using three_step.
  - exists "", "", []. repeat split.
  - exists (String (b64_char (sx1 x)) (String (b64_char (sx2 x "000")) "")), "==", (repeat false 4).
    split; [reflexivity|]. split; [reflexivity|]. split; [reflexivity|].
    rewrite !char_bits_cons, octet_bits_cons. destruct x; reflexivity.
  - exists (String (b64_char (sx1 x)) (String (b64_char (sx2 x y)) (String (b64_char (sx3 y "000")) ""))), "=", (repeat false 2).
    split; [reflexivity|]. split; [reflexivity|]. split; [reflexivity|].
    rewrite !char_bits_cons, !octet_bits_cons. destruct x, y; reflexivity.
  - destruct IH as (body & pad & fill & Hs & Hp & Hl & Hb).
    exists (String (b64_char (sx1 x)) (String (b64_char (sx2 x y)) (String (b64_char (sx3 y z)) (String (b64_char (sx4 z)) body)))), pad, fill.
    split; [cbn [b64_encode]; rewrite Hs; reflexivity|].
    split; [|split].
    + rewrite Hp. cbn [String.length]. change (S (S (S (String.length b)))) with (3 + String.length b).
      rewrite (mod_cancel 3); [reflexivity|discriminate|reflexivity].
    + cbn [b64_encode String.length]. change (S (S (S (S (String.length (b64_encode b)))))) with (4 + String.length (b64_encode b)).
      rewrite (mod_cancel 4); [exact Hl|discriminate|reflexivity].
    + rewrite !char_bits_cons, Hb, !octet_bits_cons. destruct x, y, z; reflexivity.
Qed.

Lemma trim_end_eq_cons c s : Ascii.eqb c "=" = false -> trim_end_eq (String c s) = String c (trim_end_eq s).
Proof. intros H. cbn [trim_end_eq]. destruct (trim_end_eq s); [rewrite H|]; reflexivity. Qed.

Lemma b64_len b : base64_string_len (base64_binary_write b) = String.length b.
Proof.
  unfold base64_string_len, base64_binary_write.
  assert (H : exists r, String.length (trim_end_eq (b64_encode b)) * 3 = 4 * String.length b + r /\ r < 4).
  { induction b as [|x|x y|x y z b IH] using three_step.
    - exists 0. split; [reflexivity|lia].
    - cbn [b64_encode]. rewrite !trim_end_eq_cons by apply b64_char_eq. exists 2. split; [reflexivity|lia].
    - cbn [b64_encode]. rewrite !trim_end_eq_cons by apply b64_char_eq. exists 1. split; [reflexivity|lia].
    - destruct IH as (r & IH & Hr). exists r. split; [|exact Hr].
      cbn [b64_encode]. rewrite !trim_end_eq_cons by apply b64_char_eq. cbn [String.length]. lia. }
  destruct H as (r & -> & Hr). rewrite (Nat.mul_comm 4), Nat.div_add_l by discriminate.
  rewrite (Nat.div_small r 4 Hr). lia.
Qed.
