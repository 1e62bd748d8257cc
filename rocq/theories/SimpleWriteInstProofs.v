(** The instance meets the hypotheses about built-in types. *)
From Verif Require Import SimpleModel SimpleInst SimpleWriteModel SimpleWriteSpec SimpleWriteInst FacetProofs.

Lemma strip_digits s : digits s -> digits (strip_start s).
Proof. induction 1 as [|c s H HF IH]; cbn; [constructor|]. destruct (c =? 48)%N; [exact IH|constructor; assumption]. Qed.
Lemma integer_digits s : digits s -> digits (integer_part s) /\ integer_part s <> [].
Proof.
  intros H. apply strip_digits in H. unfold integer_part. destruct (strip_start s); [|split; [exact H|discriminate]].
  split; [|discriminate]. constructor; [lia|constructor].
Qed.
Lemma fraction_digits_ok s : digits s -> digits (fraction_part s).
Proof. intros H. apply Forall_rev, strip_digits, Forall_rev, H. Qed.
Lemma strip_first s : match strip_start s with [] => True | c :: _ => c <> 48%N end.
Proof. induction s as [|c s IH]; cbn; [exact I|]. destruct (N.eqb_spec c 48); [exact IH|exact n]. Qed.
Lemma strip_idem s : strip_start (strip_start s) = strip_start s.
Proof.
  pose proof (strip_first s) as H. destruct (strip_start s) as [|c r]; [reflexivity|]. cbn. destruct (N.eqb_spec c 48); [contradiction|reflexivity].
Qed.
Lemma integer_idem s : integer_part (integer_part s) = integer_part s.
Proof.
  unfold integer_part. pose proof (strip_first s) as H. destruct (strip_start s) as [|c r] eqn:E; [reflexivity|]. cbn.
  destruct (N.eqb_spec c 48); [contradiction|reflexivity].
Qed.
Lemma fraction_idem s : fraction_part (fraction_part s) = fraction_part s.
Proof. unfold fraction_part. rewrite rev_involutive, strip_idem. reflexivity. Qed.
Lemma strip_length s : length (strip_start s) <= length s.
Proof. induction s as [|c s IH]; cbn; [lia|]. destruct (c =? 48)%N; cbn; lia. Qed.
Lemma integer_length s : s <> [] -> length (integer_part s) <= length s.
Proof.
  intros HN. unfold integer_part. pose proof (strip_length s). destruct (strip_start s); [|assumption]. destruct s; [elim HN; reflexivity|]. cbn. lia.
Qed.
Lemma fraction_length s : length (fraction_part s) <= length s.
Proof. unfold fraction_part. rewrite rev_length. pose proof (strip_length (rev s)). rewrite rev_length in H. exact H. Qed.
Lemma strip_zeros n s : strip_start (repeat 48%N n ++ s) = strip_start s.
Proof. induction n as [|n IH]; [reflexivity|exact IH]. Qed.
Lemma rev_zeros n : rev (repeat 48%N n) = repeat 48%N n.
Proof.
  induction n as [|n IH]; [reflexivity|]. cbn. rewrite IH. clear IH. induction n as [|n IH]; [reflexivity|]. cbn. rewrite IH. reflexivity.
Qed.
Lemma fraction_zeros s n : fraction_part (s ++ repeat 48%N n) = fraction_part s.
Proof. unfold fraction_part. rewrite rev_app_distr, rev_zeros, strip_zeros. reflexivity. Qed.

Definition tail_of (fp : list N) (dot : bool) : list N := (if dot then [46%N] else []) ++ fp.

Lemma digit_sign c s : digits (c :: s) -> (c =? 45)%N = false.
Proof. intros H. inversion_clear H. apply N.eqb_neq. lia. Qed.

Lemma rx_print neg ip fp dot : ip <> [] -> digits ip -> digits fp -> (dot = false -> fp = []) ->
  rx_decimal (wsign neg ++ ip ++ tail_of fp dot) = Some (ip, if dot then Some fp else None) /\
  negative (wsign neg ++ ip ++ tail_of fp dot) = neg.
Proof.
  intros HN HI HF HD. split.
  - apply rx_decimal_spec. exists (if neg then Minus else NoSign), fp, dot. split; [destruct neg; auto|]. split; [exact HN|]. split; [|reflexivity].
    split; [destruct neg; reflexivity|]. auto.
  - destruct neg; [reflexivity|]. destruct ip as [|c ip]; [elim HN; reflexivity|]. apply (digit_sign _ _ HI).
Qed.

Lemma digits_word s : digits s -> Forall (fun c => (32 < c < 128)%N) s.
Proof. apply Forall_impl. intros c H. lia. Qed.
Lemma print_word neg ip fp dot : ip <> [] -> digits ip -> digits fp -> word (wsign neg ++ ip ++ tail_of fp dot).
Proof.
  intros HN HI HF. split.
  - destruct neg; [discriminate|]. destruct ip; [elim HN; reflexivity|discriminate].
  - apply Forall_app. split; [destruct neg; repeat constructor; lia|]. apply Forall_app. split; [apply digits_word, HI|].
    apply Forall_app. split; [destruct dot; repeat constructor; lia|apply digits_word, HF].
Qed.

Lemma rx_parts s ip fp : rx_decimal s = Some (ip, fp) ->
  ip <> [] /\ digits ip /\ match fp with Some f => digits f | None => True end.
Proof.
  intros H. apply rx_decimal_spec in H as (g & f & dot & _ & HN & (_ & HI & HF & _) & ->). split; [exact HN|]. split; [exact HI|].
  destruct dot; [exact HF|exact I].
Qed.

Definition has_dot (fp : list N) : bool := match fp with [] => false | _ => true end.
Lemma print_tail neg ip fp : wprint (WDec neg ip fp) = wsign neg ++ ip ++ tail_of fp (has_dot fp).
Proof. destruct fp; reflexivity. Qed.

Lemma wverbatim : verbatim wparse wprint 0.
Proof. intros s a H. injection H as <-. reflexivity. Qed.

Definition whole (fp : option (list N)) : list N := match fp with Some fp => fp | None => [] end.
Lemma parsed b s a : b <> 0 -> wparse b s = Some a -> exists ip fp, rx_decimal s = Some (ip, fp) /\ (b = 1 -> fp = None) /\
  a = WDec (negative s) (integer_part ip) (fraction_part (whole fp)).
Proof.
  intros Hb H. destruct b as [|[|b]]; [elim Hb; reflexivity| |]; cbn in H; destruct (rx_decimal s) as [[ip [fp|]]|]; try discriminate; injection H as <-.
  - exists ip, None. auto.
  - exists ip, (Some fp). split; [reflexivity|]. split; [discriminate|reflexivity].
  - exists ip, None. split; [reflexivity|]. split; [discriminate|reflexivity].
Qed.
Lemma parse_text b neg ip fp dot : b <> 0 -> ip <> [] -> digits ip -> digits fp -> (dot = false -> fp = []) -> (b = 1 -> dot = false) ->
  wparse b (wsign neg ++ ip ++ tail_of fp dot) = Some (WDec neg (integer_part ip) (fraction_part fp)).
Proof.
  intros Hb HN HI HF HD H1. destruct (rx_print neg ip fp dot HN HI HF HD) as (E1 & E2).
  destruct b as [|[|b]]; [elim Hb; reflexivity| |]; cbn [wparse]; rewrite E1, E2.
  - rewrite (H1 eq_refl). rewrite (HD (H1 eq_refl)). reflexivity.
  - destruct dot; [reflexivity|]. rewrite (HD eq_refl). reflexivity.
Qed.
Lemma whole_digits fp : match fp with Some f => digits f | None => True end -> digits (whole fp).
Proof. destruct fp; [auto|]. intros _. constructor. Qed.

Lemma wnumeric b : b <> 0 -> numeric wparse wprint b.
Proof.
  intros Hb s a H. destruct (parsed b s a Hb H) as (ip & fp & E & H1 & ->). destruct (rx_parts _ _ _ E) as (HN & HI & HF).
  destruct (integer_digits _ HI) as (HI' & HN'). pose proof (fraction_digits_ok _ (whole_digits _ HF)) as HF'.
  rewrite print_tail. split; [apply print_word; assumption|].
  rewrite parse_text; try assumption.
  - rewrite integer_idem, fraction_idem. reflexivity.
  - destruct (fraction_part (whole fp)); [reflexivity|discriminate].
  - intros E1. rewrite (H1 E1). reflexivity.
Qed.

Lemma total_rx s ip fp n : rx_decimal s = Some (ip, fp) -> (total_digits s n = Ok tt <-> length ip + length (whole fp) <= n).
Proof.
  intros E. unfold total_digits. rewrite E. set (k := match fp with None => length ip | Some b => length ip + length b end).
  assert (Ek : k = length ip + length (whole fp)) by (unfold k; destruct fp; cbn; lia). rewrite Ek.
  destruct (Nat.leb_spec (length ip + length (whole fp)) n); split; try discriminate; try reflexivity; lia.
Qed.
Lemma fraction_rx s ip fp n : rx_decimal s = Some (ip, fp) -> (fraction_digits s n = Ok tt <-> length (whole fp) <= n).
Proof.
  intros E. unfold fraction_digits. rewrite E. set (k := match fp with None => 0 | Some b => length b end).
  assert (Ek : k = length (whole fp)) by (unfold k; destruct fp; reflexivity). rewrite Ek.
  destruct (Nat.leb_spec (length (whole fp)) n); split; try discriminate; try reflexivity; lia.
Qed.
Lemma whole_dot fp dot : (dot = false -> fp = []) -> whole (if dot then Some fp else None) = fp.
Proof. destruct dot; [reflexivity|]. intros H. rewrite H; reflexivity. Qed.

Lemma wshortest b : b <> 0 -> shortest wparse wprint b.
Proof.
  intros Hb s a n H HT. destruct (parsed b s a Hb H) as (ip & fp & E & H1 & ->). destruct (rx_parts _ _ _ E) as (HN & HI & HF).
  destruct (integer_digits _ HI) as (HI' & HN'). pose proof (fraction_digits_ok _ (whole_digits _ HF)) as HF'.
  rewrite (total_rx _ _ _ _ E) in HT. rewrite print_tail.
  assert (HD : has_dot (fraction_part (whole fp)) = false -> fraction_part (whole fp) = []) by (destruct (fraction_part (whole fp)); [reflexivity|discriminate]).
  destruct (rx_print (negative s) _ _ _ HN' HI' HF' HD) as (E1 & _). rewrite (total_rx _ _ _ _ E1), whole_dot by exact HD.
  pose proof (integer_length ip HN). pose proof (fraction_length (whole fp)). lia.
Qed.

Lemma wfixed_point n : fixed_point wparse wfixed 2 n.
Proof.
  intros s a H HT. destruct (parsed 2 s a ltac:(discriminate) H) as (ip & fp & E & _ & ->). destruct (rx_parts _ _ _ E) as (HN & HI & HF).
  destruct (integer_digits _ HI) as (HI' & HN'). pose proof (fraction_digits_ok _ (whole_digits _ HF)) as HF'.
  rewrite (fraction_rx _ _ _ _ E) in HT. pose proof (fraction_length (whole fp)) as HL. set (f := fraction_part (whole fp)) in *.
  assert (EF : firstn n (f ++ repeat 48%N n) = f ++ repeat 48%N (n - length f)).
  { rewrite firstn_app, firstn_all2 by lia. f_equal. replace n with ((n - length f) + length f) at 2 by lia. rewrite repeat_app, firstn_app, repeat_length.
    rewrite firstn_all2 by (rewrite repeat_length; lia). replace (n - length f - (n - length f)) with 0 by lia. cbn. apply app_nil_r. }
  set (dot := match n with 0 => false | _ => true end). set (g := match n with 0 => [] | _ => f ++ repeat 48%N (n - length f) end).
  assert (EW : wfixed n (WDec (negative s) (integer_part ip) f) = wsign (negative s) ++ integer_part ip ++ tail_of g dot).
  { cbn [wfixed]. rewrite EF. unfold g, dot. destruct n; reflexivity. }
  rewrite EW.
  assert (HG : digits g).
  { unfold g. destruct n; [constructor|]. apply Forall_app. split; [exact HF'|]. apply Forall_forall. intros c Hc. apply repeat_spec in Hc. subst. lia. }
  assert (HD : dot = false -> g = []) by (unfold dot, g; destruct n; [reflexivity|discriminate]).
  assert (EG : fraction_part g = f).
  { unfold g. destruct n; [destruct f; [reflexivity|cbn in HL; lia]|]. rewrite fraction_zeros. apply fraction_idem. }
  assert (HLg : length g = n).
  { unfold g. destruct n; [reflexivity|]. rewrite app_length, repeat_length. lia. }
  destruct (rx_print (negative s) _ _ _ HN' HI' HG HD) as (E1 & _).
  split; [apply print_word; assumption|]. split; [|split].
  - rewrite parse_text; try assumption; [|discriminate|discriminate]. rewrite integer_idem, EG. reflexivity.
  - rewrite (fraction_rx _ _ _ _ E1), whole_dot by exact HD. lia.
  - intros Hn k Hk. rewrite (total_rx _ _ _ _ E) in Hk. rewrite (total_rx _ _ _ _ E1), whole_dot by exact HD. pose proof (integer_length ip HN). lia.
Qed.
