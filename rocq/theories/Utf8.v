(** UTF-8 validity as checked by [core::str::from_utf8] (well-formed byte
    sequences of the Unicode standard, table 3-7). *)
From Verif Require Export Base.
Local Open Scope string_scope.

(** Expected bytes: start of a character, or continuation bytes (the first of
    which may be restricted). *)
Inductive ustate := U0 | U1 | U2 | U3 | UE0 | UED | UF0 | UF4.

Definition between (lo hi n : nat) : bool := Nat.leb lo n && Nat.leb n hi.

Definition ustep (st : ustate) (n : nat) : option ustate :=
  match st with
  | U0 =>
      if Nat.ltb n 128 then Some U0
      else if between 194 223 n then Some U1
      else if Nat.eqb n 224 then Some UE0
      else if Nat.eqb n 237 then Some UED
      else if between 225 239 n then Some U2
      else if Nat.eqb n 240 then Some UF0
      else if between 241 243 n then Some U3
      else if Nat.eqb n 244 then Some UF4
      else None
  | U1 => if between 128 191 n then Some U0 else None
  | U2 => if between 128 191 n then Some U1 else None
  | U3 => if between 128 191 n then Some U2 else None
  | UE0 => if between 160 191 n then Some U1 else None
  | UED => if between 128 159 n then Some U1 else None
  | UF0 => if between 144 191 n then Some U2 else None
  | UF4 => if between 128 143 n then Some U2 else None
  end.

Fixpoint urun (st : ustate) (s : string) : bool :=
  match s with
  | EmptyString => match st with U0 => true | _ => false end
  | String c s' => match ustep st (nat_of_ascii c) with Some st' => urun st' s' | None => false end
  end.

Definition utf8_valid (s : bytes) : bool := urun U0 s.

Lemma ustep_ascii st n : n < 128 -> ustep st n = match st with U0 => Some U0 | _ => None end.
Proof.
  intros H. unfold ustep, between. destruct st;
    repeat match goal with
    | |- context [Nat.ltb ?a ?b] => destruct (Nat.ltb_spec a b)
    | |- context [Nat.leb ?a ?b] => destruct (Nat.leb_spec a b)
    end; cbn; try reflexivity; exfalso; lia.
Qed.

(** Valid text can be cut at any ASCII character. *)
Lemma utf8_split a c b : nat_of_ascii c < 128 ->
  utf8_valid (a ++ String c b) = utf8_valid a && utf8_valid b.
Proof.
  intros H. unfold utf8_valid.
  assert (G : forall st, urun st (a ++ String c b) = urun st a && urun U0 b); [|apply G].
  induction a as [|d a IH]; intros st; cbn [urun append].
  - rewrite (ustep_ascii st _ H). destruct st; reflexivity.
  - destruct (ustep st (nat_of_ascii d)); [apply IH|reflexivity].
Qed.

Lemma utf8_app a b : utf8_valid a = true -> utf8_valid (a ++ b) = utf8_valid b.
Proof.
  unfold utf8_valid.
  assert (G : forall st, urun st a = true -> urun st (a ++ b) = urun U0 b); [|apply G].
  induction a as [|d a IH]; intros st; cbn [urun append].
  - destruct st; try discriminate. reflexivity.
  - destruct (ustep st (nat_of_ascii d)); [apply IH|discriminate].
Qed.

Lemma utf8_ascii s : (forall c, In c (list_ascii_of_string s) -> nat_of_ascii c < 128) -> utf8_valid s = true.
Proof.
  induction s as [|c s IH]; intros H; [reflexivity|].
  change (String c s) with ("" ++ String c s). rewrite utf8_split; [|apply H; left; reflexivity].
  cbn [utf8_valid urun andb]. apply IH. intros d Hd. apply H. right; exact Hd.
Qed.
