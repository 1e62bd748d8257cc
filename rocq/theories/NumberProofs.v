(** Proofs about the numeric built-in types. *)
From Coq Require Import ZArith Decimal DecimalString DecimalN DecimalPos.
From Verif Require Import AnySimpleModel NumberModel NumberSpec.
Local Open Scope string_scope.

(** ** Digits *)

Lemma digit_spec c d : digit c = Some d <-> is_digit c d.
Proof.
  unfold digit, is_digit. destruct (Nat.leb_spec 48 (nat_of_ascii c)), (Nat.leb_spec (nat_of_ascii c) 57); cbn [andb]; split; try discriminate; try lia.
  - intros E. injection E as <-. lia.
  - intros [H1 H2]. f_equal. lia.
Qed.
Lemma digit_range c d : digit c = Some d -> (0 <= d <= 9)%Z.
Proof. intros H. apply digit_spec in H. apply H. Qed.

Lemma numeral_range s v : numeral s v -> (0 <= v)%Z.
Proof.
  induction 1 as [c d [H _]|c d s v [H _] _ IH]; [lia|].
  assert (0 <= 10 ^ Z.of_nat (String.length s))%Z by (apply Z.pow_nonneg; lia). nia.
Qed.
Lemma numeral_head s v : numeral s v -> exists c r d, s = String c r /\ is_digit c d.
Proof. destruct 1 as [c d H|c d s v H _]; eauto. Qed.

Lemma big_ge s : forall acc r, (0 <= acc)%Z -> big_digits s acc = Some r -> (acc <= r)%Z.
Proof.
  induction s as [|c s IH]; intros acc r H E; cbn [big_digits] in E; [injection E as <-; lia|].
  destruct (digit c) as [d|] eqn:D; [|discriminate]. apply digit_range in D. apply IH in E; lia.
Qed.

Lemma big_numeral s : forall acc r, s <> "" ->
  big_digits s acc = Some r <-> exists v, numeral s v /\ r = (acc * 10 ^ Z.of_nat (String.length s) + v)%Z.
Proof.
  induction s as [|c s IH]; intros acc r HN; [elim HN; reflexivity|]. cbn [big_digits].
  destruct (digit c) as [d|] eqn:D.
  - destruct s as [|c' s'].
    + cbn [big_digits String.length]. split.
      * intros E. injection E as <-. exists d. split; [constructor; apply digit_spec, D|]. change (Z.of_nat 1) with 1%Z. lia.
      * intros (v & H & ->). inversion H as [c0 d0 HD|c0 d0 s0 v0 HD H']; subst; [|inversion H'].
        apply digit_spec in HD. rewrite D in HD. injection HD as ->. change (Z.of_nat 1) with 1%Z. f_equal; try lia.
    + set (s := String c' s') in *. rewrite IH by discriminate. cbn [String.length]. fold (String.length s).
      rewrite Nat2Z.inj_succ, Z.pow_succ_r by lia. split.
      * intros (v & H & ->). exists (d * 10 ^ Z.of_nat (String.length s) + v)%Z.
        split; [constructor; [apply digit_spec, D|exact H]|]. ring.
      * intros (v & H & ->). inversion H as [c0 d0 HD|c0 d0 s0 v0 HD H']; subst. apply digit_spec in HD. rewrite D in HD. injection HD as ->.
        exists v0. split; [exact H'|]. ring.
  - split; [discriminate|]. intros (v & H & _). inversion H as [c0 d0 HD|c0 d0 s0 v0 HD H']; subst; apply digit_spec in HD; congruence.
Qed.

(** ** Signs *)

Lemma digit_no_sign c d : is_digit c d -> Ascii.eqb c "+" = false /\ Ascii.eqb c "-" = false.
Proof.
  intros [H1 H2]. split; [destruct (Ascii.eqb_spec c "+") as [->|]|destruct (Ascii.eqb_spec c "-") as [->|]]; try reflexivity; cbn in H2; lia.
Qed.

Lemma big_zero s z : s <> "" -> big_digits s 0 = Some z <-> numeral s z.
Proof.
  intros H. rewrite (big_numeral s 0 z H). split; [intros (v & HV & ->)|intros HV; exists z; split; [exact HV|]].
  - rewrite Z.mul_0_l. exact HV.
  - reflexivity.
Qed.

Lemma numeral_not_empty z : ~ numeral "" z.
Proof. intros H. inversion H. Qed.

Lemma literal_head c s z : int_literal (String c s) z ->
  (c = "+"%char /\ numeral s z) \/ (c = "-"%char /\ numeral s (- z)) \/ (Ascii.eqb c "+" = false /\ Ascii.eqb c "-" = false /\ numeral (String c s) z).
Proof.
  intros H. inversion H as [s' v HN E1 E2|s' v HN E1 E2|s' v HN E1 E2]; subst.
  - right. right. destruct (numeral_head _ _ HN) as (c' & r & d & E & D). injection E as <- <-.
    destruct (digit_no_sign _ _ D) as [A B]. auto.
  - left. auto.
  - right. left. rewrite Z.opp_involutive. auto.
Qed.

Lemma big_literal signed s z : big_from_str signed s = Some z <-> int_literal s z /\ (signed = false -> ~ has_minus s).
Proof.
  destruct s as [|c s]; cbn [big_from_str].
  - split; [discriminate|]. intros [H _]. inversion H as [s' v HN E1 E2| |]; subst. destruct (numeral_not_empty _ HN).
  - destruct (Ascii.eqb_spec c "+") as [->|NP].
    + split.
      * intros E. assert (HN : numeral s z) by (destruct s; [discriminate|]; apply big_zero; [discriminate|exact E]).
        split; [exact (Lit_plus s z HN)|]. intros _ (r & E'). discriminate E'.
      * intros [H _]. destruct (literal_head _ _ _ H) as [[_ HN]|[[E _]|[E _]]]; [|discriminate E|discriminate E].
        destruct s as [|c' s']; [destruct (numeral_not_empty _ HN)|]. apply big_zero; [discriminate|exact HN].
    + destruct (Ascii.eqb_spec c "-") as [->|NM].
      * split.
        -- intros E. destruct s as [|c' s']; [discriminate|]. destruct signed; [|discriminate].
           destruct (big_digits (String c' s') 0) as [v|] eqn:B; [|discriminate]. injection E as <-.
           split; [|discriminate]. apply (Lit_minus (String c' s') v). apply big_zero; [discriminate|exact B].
        -- intros [H HS]. destruct (literal_head _ _ _ H) as [[E _]|[[_ HN]|[_ [E _]]]]; [discriminate E| |discriminate E].
           destruct s as [|c' s']; [destruct (numeral_not_empty _ HN)|]. destruct signed; [|elim (HS eq_refl); exists (String c' s'); reflexivity].
           apply big_zero in HN; [|discriminate]. rewrite HN. cbn. rewrite Z.opp_involutive. reflexivity.
      * change (big_digits (String c s) 0 = Some z <-> int_literal (String c s) z /\ (signed = false -> ~ has_minus (String c s))).
        rewrite big_zero by discriminate. split.
        -- intros HN. split; [constructor; exact HN|]. intros _ (r & E). injection E as E _. congruence.
        -- intros [H _]. destruct (literal_head _ _ _ H) as [[E _]|[[E _]|[_ [_ HN]]]]; [congruence|congruence|exact HN].
Qed.

(** ** Checked arithmetic *)

Lemma checked_spec lo hi z : checked lo hi z = if (Z.leb lo z && Z.leb z hi)%bool then Some z else None.
Proof. reflexivity. Qed.

Lemma loop_pos lo hi s : (lo <= 0)%Z -> forall acc, (0 <= acc <= hi)%Z ->
  digits_loop false lo hi s acc = match big_digits s acc with Some r => checked lo hi r | None => None end.
Proof.
  intros HL. induction s as [|c s IH]; intros acc HA; cbn [digits_loop big_digits].
  - unfold checked. destruct (Z.leb_spec lo acc), (Z.leb_spec acc hi); try reflexivity; lia.
  - destruct (digit c) as [d|] eqn:D; [|reflexivity]. pose proof (digit_range _ _ D) as R. unfold checked at 1.
    assert (HO : (hi < acc * 10 + d)%Z -> match big_digits s (acc * 10 + d) with Some r => checked lo hi r | None => None end = None).
    { intros HX. destruct (big_digits s (acc * 10 + d)) as [r|] eqn:B; [|reflexivity]. apply big_ge in B; [|lia].
      unfold checked. destruct (Z.leb_spec r hi); [lia|]. destruct (Z.leb lo r); reflexivity. }
    destruct (Z.leb_spec lo (acc * 10)%Z); [|lia]. destruct (Z.leb_spec (acc * 10)%Z hi); cbn [andb]; [|symmetry; apply HO; lia].
    unfold checked at 1. destruct (Z.leb_spec lo (acc * 10 + d)%Z); [|lia]. destruct (Z.leb_spec (acc * 10 + d)%Z hi); cbn [andb]; [|symmetry; apply HO; lia].
    apply IH. lia.
Qed.
Lemma loop_neg lo hi s : (0 <= hi)%Z -> forall acc, (0 <= acc)%Z -> (lo <= - acc)%Z ->
  digits_loop true lo hi s (- acc) = match big_digits s acc with Some r => checked lo hi (- r) | None => None end.
Proof.
  intros HH. induction s as [|c s IH]; intros acc HA HL; cbn [digits_loop big_digits].
  - unfold checked. destruct (Z.leb_spec lo (- acc)), (Z.leb_spec (- acc) hi); try reflexivity; lia.
  - destruct (digit c) as [d|] eqn:D; [|reflexivity]. pose proof (digit_range _ _ D) as R. unfold checked at 1.
    assert (HO : (- (acc * 10 + d) < lo)%Z -> match big_digits s (acc * 10 + d) with Some r => checked lo hi (- r) | None => None end = None).
    { intros HX. destruct (big_digits s (acc * 10 + d)) as [r|] eqn:B; [|reflexivity]. apply big_ge in B; [|lia].
      unfold checked. destruct (Z.leb_spec lo (- r)); [lia|]. reflexivity. }
    destruct (Z.leb_spec lo (- acc * 10)%Z); cbn [andb]; [|symmetry; apply HO; lia].
    destruct (Z.leb_spec (- acc * 10)%Z hi); [|lia].
    unfold checked at 1. destruct (Z.leb_spec lo (- acc * 10 - d)%Z); cbn [andb]; [|symmetry; apply HO; lia].
    destruct (Z.leb_spec (- acc * 10 - d)%Z hi); [|lia].
    replace (- acc * 10 - d)%Z with (- (acc * 10 + d))%Z by ring. apply IH; lia.
Qed.

Lemma int_as_big lo hi s : (lo <= 0 <= hi)%Z ->
  int_from_str lo hi s = match big_from_str (Z.ltb lo 0) s with Some z => checked lo hi z | None => None end.
Proof.
  intros H. destruct s as [|c s]; [reflexivity|]. cbn [int_from_str big_from_str].
  destruct (Ascii.eqb c "+").
  - destruct s as [|c' s']; [reflexivity|]. apply loop_pos; lia.
  - destruct (Ascii.eqb c "-").
    + destruct s as [|c' s']; [reflexivity|]. destruct (Z.ltb lo 0); [|reflexivity].
      change 0%Z with (- 0)%Z at 1. rewrite loop_neg by lia. destruct (big_digits (String c' s') 0); reflexivity.
    + apply loop_pos; lia.
Qed.

Lemma int_literal_read lo hi s z : (lo <= 0 <= hi)%Z ->
  int_from_str lo hi s = Some z <-> int_literal s z /\ (lo <= z <= hi)%Z /\ (lo = 0%Z -> ~ has_minus s).
Proof.
  intros H. rewrite int_as_big by exact H. split.
  - intros E. destruct (big_from_str (Z.ltb lo 0) s) as [v|] eqn:B; [|discriminate]. unfold checked in E.
    destruct (Z.leb_spec lo v), (Z.leb_spec v hi); try discriminate. injection E as ->.
    apply big_literal in B as [HL HM]. split; [exact HL|]. split; [lia|]. intros ->. apply HM. reflexivity.
  - intros (HL & HR & HM). assert (B : big_from_str (Z.ltb lo 0) s = Some z).
    { apply big_literal. split; [exact HL|]. intros E. apply HM. apply Z.ltb_ge in E. lia. }
    rewrite B. unfold checked. destruct (Z.leb_spec lo z), (Z.leb_spec z hi); try reflexivity; lia.
Qed.

Lemma pow2_pos n : (0 < pow2 n)%Z.
Proof. apply Z.pow_pos_nonneg; lia. Qed.
Lemma limits g bits : (int_min g bits <= 0 <= int_max g bits)%Z.
Proof. destruct g; cbn [int_min int_max]; pose proof (pow2_pos bits); pose proof (pow2_pos (bits - 1)); lia. Qed.
Lemma min_zero g bits : int_min g bits = 0%Z <-> g = false.
Proof. destruct g; cbn; pose proof (pow2_pos (bits - 1)); split; try reflexivity; try discriminate; lia. Qed.

Lemma read_int_type g bits s z :
  int_from_str (int_min g bits) (int_max g bits) s = Some z <->
  int_literal s z /\ (int_min g bits <= z <= int_max g bits)%Z /\ (g = false -> ~ has_minus s).
Proof. rewrite (int_literal_read _ _ s z (limits g bits)). rewrite min_zero. reflexivity. Qed.

(** ** Written integers *)

Fixpoint uval (u : Decimal.uint) (acc : Z) : Z :=
  match u with
  | Nil => acc
  | D0 u => uval u (acc * 10) | D1 u => uval u (acc * 10 + 1) | D2 u => uval u (acc * 10 + 2) | D3 u => uval u (acc * 10 + 3)
  | D4 u => uval u (acc * 10 + 4) | D5 u => uval u (acc * 10 + 5) | D6 u => uval u (acc * 10 + 6) | D7 u => uval u (acc * 10 + 7)
  | D8 u => uval u (acc * 10 + 8) | D9 u => uval u (acc * 10 + 9)
  end%Z.
Lemma big_uint u : forall acc, big_digits (NilEmpty.string_of_uint u) acc = Some (uval u acc).
Proof.
  induction u; intros acc; cbn [NilEmpty.string_of_uint big_digits uval]; [reflexivity|..];
  match goal with |- match digit ?c with _ => _ end = _ => let d := eval vm_compute in (digit c) in change (digit c) with d; cbv iota end;
  rewrite ?Z.add_0_r; apply IHu.
Qed.
Lemma uval_acc u : forall p, uval u (Z.pos p) = Z.pos (Pos.of_uint_acc u p).
Proof. induction u; intros p; cbn [uval Pos.of_uint_acc]; [reflexivity|..]; rewrite <- IHu; f_equal; lia. Qed.
Lemma uval_of u : uval u 0 = Z.of_N (N.of_uint u).
Proof.
  change N.of_uint with Pos.of_uint.
  induction u; cbn [uval Pos.of_uint]; [reflexivity|..]; try (cbn [Z.of_N]; rewrite <- uval_acc; reflexivity). exact IHu.
Qed.

Lemma string_of_nonnil u : u <> Decimal.Nil -> NilZero.string_of_uint u = NilEmpty.string_of_uint u /\ NilEmpty.string_of_uint u <> "".
Proof. destruct u; intros H; [elim H; reflexivity|..]; split; try reflexivity; discriminate. Qed.
Lemma pos_numeral p : numeral (NilZero.string_of_uint (Pos.to_uint p)) (Z.pos p).
Proof.
  assert (HN : Pos.to_uint p <> Decimal.Nil) by (change (Pos.to_uint p) with (N.to_uint (N.pos p)); apply DecimalPos.Unsigned.to_uint_nonnil).
  destruct (string_of_nonnil _ HN) as [-> HS]. apply big_zero; [exact HS|]. rewrite big_uint, uval_of.
  change (Pos.to_uint p) with (N.to_uint (N.pos p)). rewrite DecimalN.Unsigned.of_to. reflexivity.
Qed.
Lemma written_literal z : int_literal (write_int z) z /\ ((0 <= z)%Z -> ~ has_minus (write_int z)).
Proof.
  unfold write_int, print_int. destruct z as [|p|p]; cbn [Z.to_int NilZero.string_of_int].
  - split; [constructor; apply (Num_one "0"%char 0); split; [lia|reflexivity]|]. intros _ (r & E). discriminate E.
  - split; [constructor; apply pos_numeral|]. intros _ (r & E). destruct (numeral_head _ _ (pos_numeral p)) as (c & r' & d & E' & D).
    rewrite E' in E. injection E as -> _. destruct (digit_no_sign _ _ D) as [_ F]. discriminate F.
  - split; [apply (Lit_minus _ (Z.pos p)), pos_numeral|]. lia.
Qed.

(** ** Floating-point numbers *)

Lemma span_app a r : all_digits a -> match r with String c _ => digit c = None | "" => True end -> span_digits (a ++ r) = (String.length a, r).
Proof.
  intros HA HR. induction a as [|c a IH]; cbn [append span_digits String.length].
  - destruct r as [|c r]; [reflexivity|]. cbn [span_digits]. rewrite HR. reflexivity.
  - destruct (HA c (or_introl eq_refl)) as (d & D). apply digit_spec in D. rewrite D.
    rewrite IH by (intros x Hx; apply HA; right; exact Hx). reflexivity.
Qed.
Lemma app_nil_str s : s ++ "" = s.
Proof. induction s as [|c s IH]; [reflexivity|]. cbn. rewrite IH. reflexivity. Qed.
Lemma length_pos s : s <> "" -> 0 < String.length s.
Proof. destruct s; [congruence|cbn; lia]. Qed.

Definition tail_ok (r : string) : Prop :=
  exponent_ok r = true /\ match r with String c _ => digit c = None /\ c <> "."%char | "" => True end.
Definition strip_sign (s : string) : string :=
  match s with String g r => if (Ascii.eqb g "+" || Ascii.eqb g "-")%bool then r else s | _ => s end.
Definition body_ok (s : string) : bool :=
  (let (n, r) := span_digits s in
   match r with
   | String "." r' => let (k, r'') := span_digits r' in Nat.ltb 0 (n + k) && exponent_ok r''
   | _ => Nat.ltb 0 n && exponent_ok r
   end)%bool.
Lemma float_def s : float_from_str s = (special (strip_sign s) || body_ok (strip_sign s))%bool.
Proof. reflexivity. Qed.

Lemma body_decimal u t : unsigned_decimal u -> tail_ok t -> body_ok (u ++ t) = true.
Proof.
  intros HU [HE HT]. unfold body_ok. destruct HU as [[HN HD]|(a & b & -> & HA & HB & HN)].
  - rewrite (span_app u t HD) by (destruct t; [exact I|apply HT]).
    assert (HX : (Nat.ltb 0 (String.length u) && exponent_ok t)%bool = true).
    { rewrite HE, andb_true_r. apply Nat.ltb_lt, length_pos, HN. }
    destruct t as [|c t]; [exact HX|]. destruct HT as [_ HT]. clear HE. destruct c as [[] [] [] [] [] [] [] []]; try exact HX. elim HT. reflexivity.
  - assert (E : (a ++ "." ++ b) ++ t = a ++ String "." (b ++ t)).
    { clear. induction a as [|c a IH]; [reflexivity|]. cbn in *. rewrite IH. reflexivity. }
    rewrite E, (span_app a (String "." (b ++ t)) HA) by reflexivity.
    rewrite (span_app b t HB) by (destruct t; [exact I|apply HT]). rewrite HE, andb_true_r. apply Nat.ltb_lt.
    destruct HN as [HN|HN]; apply length_pos in HN; lia.
Qed.

Lemma unsigned_head u t : unsigned_decimal u -> strip_sign (u ++ t) = u ++ t.
Proof.
  assert (HX : forall c r, (exists d, is_digit c d) \/ c = "."%char -> strip_sign (String c r) = String c r).
  { intros c r [(d & D)| ->]; [|reflexivity]. cbn. destruct (digit_no_sign _ _ D) as [-> ->]. reflexivity. }
  intros [[HN HD]|(a & b & -> & HA & HB & HN)].
  - destruct u as [|c u]; [elim HN; reflexivity|]. apply HX. left. apply HD. left. reflexivity.
  - destruct a as [|c a]; [apply HX; right; reflexivity|]. apply HX. left. apply HA. left. reflexivity.
Qed.

Lemma float_decimal s u t : signed_text s u -> unsigned_decimal u -> tail_ok t -> float_from_str (s ++ t) = true.
Proof.
  intros HS HU HT. rewrite float_def. assert (E : strip_sign (s ++ t) = u ++ t).
  { destruct HS as [->|[->| ->]]; [apply unsigned_head, HU|reflexivity|reflexivity]. }
  rewrite E, (body_decimal u t HU HT). apply orb_true_r.
Qed.

Lemma empty_tail : tail_ok "".
Proof. split; [reflexivity|exact I]. Qed.
Lemma exponent_tail e x n : e = "e" \/ e = "E" -> signed_text x n -> n <> "" -> all_digits n -> tail_ok (e ++ x).
Proof.
  intros HE HX HN HD. assert (HS : match span_digits n with (S _, EmptyString) => true | _ => false end = true).
  { rewrite <- (app_nil_str n), (span_app n "" HD) by exact I. pose proof (length_pos n HN). destruct (String.length n); [lia|reflexivity]. }
  assert (HG : strip_sign x = n).
  { destruct HX as [->|[->| ->]]; [|reflexivity|reflexivity]. rewrite <- (app_nil_str n). apply unsigned_head. left. auto. }
  assert (HO : exponent_ok (e ++ x) = true).
  { destruct HE as [->| ->]; cbn [append exponent_ok Ascii.eqb Bool.eqb orb andb]; fold (strip_sign x); rewrite HG; exact HS. }
  split; [exact HO|]. destruct HE as [->| ->]; (split; [reflexivity|discriminate]).
Qed.

Lemma app_assoc_str a b c : (a ++ b) ++ c = a ++ b ++ c.
Proof. induction a as [|x a IH]; [reflexivity|]. cbn. rewrite IH. reflexivity. Qed.

Lemma float_read s : double_text s -> float_from_str s = true.
Proof.
  intros [(u & HS & HU)|[(m & e & x & HE & -> & (u & HS & HU) & n & HX & HN & HD)|[->|[->| ->]]]]; try reflexivity.
  - rewrite <- (app_nil_str s). apply (float_decimal s u ""); auto. apply empty_tail.
  - apply (float_decimal m u (e ++ x)); auto. apply (exponent_tail e x n); auto.
Qed.

(** ** The types *)

Lemma bounds_find name b : In (name, b) bounds -> find (fun e => String.eqb (fst e) name) bounds = Some (name, b).
Proof. cbn [bounds In]. intros H. repeat (destruct H as [H|H]; [injection H as <- <-; reflexivity|]). destruct H. Qed.
Lemma denotes_bounds name s z b : In (name, b) bounds -> denotes_int name s z <-> int_literal s z /\ in_bounds b z.
Proof.
  intros HB. split.
  - intros (HL & b' & HB' & HR). apply bounds_find in HB, HB'. rewrite HB in HB'. injection HB' as <-. auto.
  - intros (HL & HR). split; [exact HL|]. exists b. auto.
Qed.
Lemma in_both l h z : in_bounds (Some l, Some h) z <-> (l <= z <= h)%Z.
Proof. split; [intros [A B]; split; [apply A|apply B]; reflexivity|intros [A B]; split; intros x E; injection E as <-; assumption]. Qed.
Lemma in_low l z : in_bounds (Some l, None) z <-> (l <= z)%Z.
Proof. split; [intros [A B]; apply A; reflexivity|intros A; split; intros x E; [injection E as <-; assumption|discriminate E]]. Qed.
Lemma in_high h z : in_bounds (None, Some h) z <-> (z <= h)%Z.
Proof. split; [intros [A B]; apply B; reflexivity|intros A; split; intros x E; [discriminate E|injection E as <-; assumption]]. Qed.

Lemma as_int_spec o z : option_map VInt o = Some (VInt z) <-> o = Some z.
Proof. destruct o; cbn; split; intros E; try discriminate; injection E as <-; reflexivity. Qed.

Lemma signed_types big nz w name s z : In name ["long"; "int"; "short"; "byte"] ->
  read_type big nz w name s = Some (VInt z) <-> denotes_int name s z.
Proof.
  intros H. unfold read_type.
  assert (HX : exists bits l h, typedef big nz name = Some (RInt true bits) /\ In (name, (Some l, Some h)) bounds /\
     int_min true bits = l /\ int_max true bits = h).
  { destruct H as [<-|[<-|[<-|[<-|[]]]]]; [exists 64|exists 32|exists 16|exists 8]; do 2 eexists;
    (split; [destruct big, nz; reflexivity|]); (split; [cbn [bounds In]; tauto|]); split; reflexivity. }
  destruct HX as (bits & l & h & -> & HB & <- & <-). cbn [read_number]. rewrite as_int_spec, read_int_type, (denotes_bounds _ _ _ _ HB), in_both.
  split; [intros (A & B & _); auto|intros (A & B); repeat split; auto; [apply B|apply B|discriminate]].
Qed.

Lemma unsigned_types big nz w name s z : In name ["unsignedLong"; "unsignedInt"; "unsignedShort"; "unsignedByte"] ->
  read_type big nz w name s = Some (VInt z) <-> denotes_int name s z /\ ~ has_minus s.
Proof.
  intros H. unfold read_type.
  assert (HX : exists bits l h, typedef big nz name = Some (RInt false bits) /\ In (name, (Some l, Some h)) bounds /\
     int_min false bits = l /\ int_max false bits = h).
  { destruct H as [<-|[<-|[<-|[<-|[]]]]]; [exists 64|exists 32|exists 16|exists 8]; do 2 eexists;
    (split; [destruct big, nz; reflexivity|]); (split; [cbn [bounds In]; tauto|]); split; reflexivity. }
  destruct HX as (bits & l & h & -> & HB & <- & <-). cbn [read_number]. rewrite as_int_spec, read_int_type, (denotes_bounds _ _ _ _ HB), in_both.
  split; [intros (A & B & C); repeat split; auto; apply B|intros ((A & B) & C); repeat split; auto; apply B].
Qed.
