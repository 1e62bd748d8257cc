(** Property C21: binary values. *)
From Verif Require Import BinModel BinSpec BinProofs.
Local Open Scope string_scope.

(** C21.  Writing a byte string as hexBinary produces two digits per byte, and
    exactly the hexBinary texts of a byte string are read as that byte string
    (plus the same texts after an extra [0x]). *)
Theorem C21_hex_write : forall b, hex_text (hex_binary_write b) b.
Proof. exact hex_write_text. Qed.
Print Assumptions C21_hex_write.

Theorem C21_hex_read : forall s b,
  hex_binary_read s = Some b <-> hex_text s b \/ exists s', s = "0x" ++ s' /\ hex_text s' b.
Proof. exact hex_read_spec. Qed.
Print Assumptions C21_hex_read.

Theorem C21_hex_round_trip : forall b, hex_binary_read (hex_binary_write b) = Some b.
Proof. intros b. apply hex_read_spec. left. apply hex_write_text. Qed.
Print Assumptions C21_hex_round_trip.

Theorem C21_hex_length : forall s b, hex_text s b -> hex_string_len s = String.length b.
Proof.
  intros s b H. unfold hex_string_len. rewrite (hex_text_length s b H), Nat.mul_comm.
  apply Nat.div_mul. discriminate.
Qed.
Print Assumptions C21_hex_length.

(** Writing a byte string as base64Binary produces its base64 text; that text, and
    no other, is read as the byte string. *)
Theorem C21_base64_write : forall b, base64_text (base64_binary_write b) b.
Proof. exact b64_write_text. Qed.
Print Assumptions C21_base64_write.

Theorem C21_base64_read : forall s b, base64_binary_read s = Some b <-> s = base64_binary_write b.
Proof. exact b64_read_spec. Qed.
Print Assumptions C21_base64_read.

Theorem C21_base64_length : forall s b, base64_binary_read s = Some b -> base64_string_len s = String.length b.
Proof. intros s b H. apply b64_read_spec in H. subst s. apply b64_len. Qed.
Print Assumptions C21_base64_length.

(** The hexBinary code of xs:anySimpleType values round trips as well. *)
Theorem C21_any_hex_round_trip : forall b,
  hex_text (any_hex_write b) b /\ any_hex_read (any_hex_write b) = Ok b.
Proof. intros b. split; [|apply any_hex_read_text]; apply any_hex_write_text. Qed.
Print Assumptions C21_any_hex_round_trip.

Example ex_hex : hex_binary_write "k:" = "6b3a" /\ hex_binary_read "6B3a" = Some "k:" /\
  hex_text "6B3a" "k:" /\ hex_binary_read "6B3" = None /\ hex_binary_read "6g" = None.
Proof.
  repeat split; try reflexivity.
  eapply hex_cons; try reflexivity. eapply hex_cons; try reflexivity. constructor.
Qed.
Example ex_base64 : base64_binary_write "Man!" = "TWFuIQ==" /\ base64_binary_read "TWFuIQ==" = Some "Man!" /\
  base64_string_len "TWFuIQ==" = 4 /\ base64_binary_read "TWFuIR==" = None /\ base64_binary_read "TWFuIQ" = None.
Proof. repeat split; reflexivity. Qed.
