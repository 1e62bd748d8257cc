From Verif Require Import QNameModel SerHelperSpec SerHelperProofs.
Local Open Scope string_scope.

Lemma qname_eq_refl q : qname_eq q q = true.
Proof. unfold qname_eq; destruct (q_ns q); rewrite ?String.eqb_refl; reflexivity. Qed.

Lemma qname_eq_sym a b : qname_eq a b = qname_eq b a.
Proof.
  unfold qname_eq; destruct (q_ns a), (q_ns b); rewrite String.eqb_sym; try reflexivity.
  f_equal. apply String.eqb_sym.
Qed.

(** A set of names is consistent when equal texts have equal namespaces. *)
Lemma qname_eq_cases a b : (q_raw a = q_raw b -> q_ns a = q_ns b) ->
  qname_eq a b = true ->
  (exists n, q_ns a = Some n /\ q_ns b = Some n /\ q_local a = q_local b) \/
  (q_ns a = None /\ q_ns b = None /\ q_raw a = q_raw b).
Proof.
  intros HC; unfold qname_eq.
  destruct (q_ns a) as [x|] eqn:Ea, (q_ns b) as [y|] eqn:Eb; intros H.
  - apply andb_true_iff in H. destruct H as [H1 H2]. apply String.eqb_eq in H1, H2.
    left; exists y; subst; auto.
  - apply String.eqb_eq in H. specialize (HC H); discriminate.
  - apply String.eqb_eq in H. specialize (HC H); discriminate.
  - apply String.eqb_eq in H. right; auto.
Qed.

Lemma qname_eq_trans_consistent a b c :
  (q_raw a = q_raw b -> q_ns a = q_ns b) ->
  (q_raw b = q_raw c -> q_ns b = q_ns c) ->
  qname_eq a b = true -> qname_eq b c = true -> qname_eq a c = true.
Proof.
  intros H1 H2 E1 E2. apply (qname_eq_cases _ _ H1) in E1. apply (qname_eq_cases _ _ H2) in E2.
  unfold qname_eq.
  destruct E1 as [(n & Ha & Hb & L1)|(Ha & Hb & R1)], E2 as [(m & Hb' & Hc & L2)|(Hb' & Hc & R2)];
    rewrite Hb in Hb'; try discriminate; rewrite ?Ha, ?Hc.
  - injection Hb' as <-. rewrite String.eqb_refl, L1, L2, String.eqb_refl; reflexivity.
  - rewrite R1, R2. apply String.eqb_refl.
Qed.

Lemma qname_hash_consistent a b :
  (q_raw a = q_raw b -> q_ns a = q_ns b) ->
  qname_eq a b = true -> qname_hash a = qname_hash b.
Proof.
  intros H1 E1. apply (qname_eq_cases _ _ H1) in E1. unfold qname_hash.
  destruct E1 as [(n & -> & -> & ->)|(-> & -> & ->)]; reflexivity.
Qed.

Lemma qname_hash_converse a b :
  qname_hash a = qname_hash b -> qname_eq a b = true.
Proof.
  unfold qname_hash, qname_eq; destruct (q_ns a), (q_ns b); intros H; try discriminate.
  - injection H as -> ->; rewrite !String.eqb_refl; reflexivity.
  - injection H as ->; apply String.eqb_refl.
Qed.

Lemma qname_split raw ns :
  let q := QName raw (colon_pos raw) ns in
  match q_prefix q with
  | Some p => raw = p ++ ":" ++ q_local q /\ no_colon p
  | None => raw = q_local q /\ no_colon raw
  end.
Proof.
  cbn. unfold q_prefix, q_local; cbn. destruct (colon_pos raw) as [i|] eqn:E.
  - apply colon_pos_take, E.
  - split; [reflexivity|apply colon_pos_none, E].
Qed.

(** ** Display *)

Definition no_backslash (s : bytes) : Prop := ~ In "\"%char (list_ascii_of_string s).


Definition unformat (s : string) : option (ascii * string) :=
  match s with
  | String a r =>
      if Ascii.eqb a "\" then
        match r with
        | String _ (String h (String l r')) =>
            let v d := let n := nat_of_ascii d in if Nat.ltb n 58 then n - 48 else n - 55 in
            Some (ascii_of_nat (16 * v h + v l), r')
        | _ => None
        end
      else if Nat.ltb (nat_of_ascii a) 128 then Some (a, r)
      else match r with
           | String b r' => Some (ascii_of_nat (64 * (nat_of_ascii a - 192) + (nat_of_ascii b - 128)), r')
           | EmptyString => None
           end
  | EmptyString => None
  end.

Lemma unformat_format c r : c <> "\"%char -> unformat (format_byte c ++ r) = Some (c, r).
Proof.
  intros H. destruct c as [b0 b1 b2 b3 b4 b5 b6 b7].
  destruct b0, b1, b2, b3, b4, b5, b6, b7;
    first [exfalso; apply H; reflexivity | vm_compute; reflexivity].
Qed.

Lemma format_inj a b : no_backslash a -> no_backslash b ->
  format_utf8_slice a = format_utf8_slice b -> a = b.
Proof.
  unfold no_backslash. revert b; induction a as [|c a IH]; intros b Ha Hb HE.
  - destruct b as [|d b]; [reflexivity|]. cbn [format_utf8_slice] in HE.
    pose proof (unformat_format d (format_utf8_slice b)) as Hu. rewrite <- HE in Hu. cbn in Hu.
    assert (d <> "\"%char) by (intros ->; apply Hb; left; reflexivity). specialize (Hu H); discriminate.
  - assert (Hc : c <> "\"%char) by (intros ->; apply Ha; left; reflexivity).
    cbn [format_utf8_slice] in HE. pose proof (unformat_format c (format_utf8_slice a) Hc) as Hu.
    destruct b as [|d b]; [rewrite HE in Hu; discriminate|].
    assert (Hd : d <> "\"%char) by (intros ->; apply Hb; left; reflexivity).
    cbn [format_utf8_slice] in HE. pose proof (unformat_format d (format_utf8_slice b) Hd) as Hv.
    rewrite HE, Hv in Hu. injection Hu as -> Hr. f_equal. apply IH; [| |symmetry; exact Hr].
    + intros HI; apply Ha; right; exact HI.
    + intros HI; apply Hb; right; exact HI.
Qed.

(** No control byte is ever written. *)
Lemma format_byte_no_control c d : In d (list_ascii_of_string (format_byte c)) -> is_ascii_control d = false.
Proof.
  assert (H : forallb (fun d => negb (is_ascii_control d)) (list_ascii_of_string (format_byte c)) = true).
  { destruct c as [b0 b1 b2 b3 b4 b5 b6 b7].
    destruct b0, b1, b2, b3, b4, b5, b6, b7; vm_compute; reflexivity. }
  rewrite forallb_forall in H. intros Hd. apply negb_true_iff, H, Hd.
Qed.

Lemma list_ascii_app a b : list_ascii_of_string (a ++ b) = (list_ascii_of_string a ++ list_ascii_of_string b)%list.
Proof. induction a as [|c a IH]; cbn; [reflexivity|rewrite IH; reflexivity]. Qed.

Lemma format_no_control s d : In d (list_ascii_of_string (format_utf8_slice s)) -> is_ascii_control d = false.
Proof.
  induction s as [|c s IH]; cbn [format_utf8_slice]; [intros []|].
  rewrite list_ascii_app. intros H. apply in_app_or in H. destruct H as [H|H]; [|apply IH, H].
  eapply format_byte_no_control, H.
Qed.
