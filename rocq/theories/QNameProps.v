(** C19, C20, C50: QName equality, splitting, display. *)
From Verif Require Import QNameModel SerHelperSpec SerHelperProofs QNameProofs.
Local Open Scope string_scope.

(** C19, proved without restriction: reflexive and symmetric. *)
Theorem C19_eq_refl_sym :
  (forall a, qname_eq a a = true) /\ (forall a b, qname_eq a b = true -> qname_eq b a = true).
Proof. split; [exact qname_eq_refl|intros a b H; rewrite qname_eq_sym; exact H]. Qed.
Print Assumptions C19_eq_refl_sym.

(** Transitivity fails: a resolved name equals an unresolved one with the same
    text, which equals a name resolved to another namespace. *)
Theorem C19_transitive_refuted : exists a b c,
  qname_eq a b = true /\ qname_eq b c = true /\ qname_eq a c = false.
Proof.
  exists (with_namespace (qname_from_bytes "p:n") "urn:a"), (qname_from_bytes "p:n"),
    (with_namespace (qname_from_bytes "p:n") "urn:b").
  vm_compute; auto.
Qed.
Print Assumptions C19_transitive_refuted.

Theorem C19_hash_refuted : exists a b,
  qname_eq a b = true /\ qname_hash a <> qname_hash b.
Proof.
  exists (with_namespace (qname_from_bytes "p:n") "urn:a"), (qname_from_bytes "p:n").
  vm_compute; split; [reflexivity|discriminate].
Qed.
Print Assumptions C19_hash_refuted.

(** Proved part: on every set [S] of names in which equal texts carry equal
    namespaces (e.g. all names read in one scope), equality is transitive and
    compatible with hashing.  Equal hash input always means equal names. *)
Theorem C19_lawful_partial : forall S : qname -> Prop,
  (forall a b, S a -> S b -> q_raw a = q_raw b -> q_ns a = q_ns b) ->
  (forall a b c, S a -> S b -> S c -> qname_eq a b = true -> qname_eq b c = true -> qname_eq a c = true) /\
  (forall a b, S a -> S b -> qname_eq a b = true <-> qname_hash a = qname_hash b).
Proof.
  intros S HS. split.
  - intros a b c Ha Hb Hc. apply qname_eq_trans_consistent; auto.
  - intros a b Ha Hb. split; [apply qname_hash_consistent; auto|apply qname_hash_converse].
Qed.
Print Assumptions C19_lawful_partial.

(** Names read in one scope satisfy the hypothesis, and different texts can be
    equal there. *)
Example C19_example : forall resolve,
  let S q := exists raw, q = qname_from_helper resolve raw in
  forall a b, S a -> S b -> q_raw a = q_raw b -> q_ns a = q_ns b.
Proof. intros resolve S a b [r1 ->] [r2 ->]; cbn; congruence. Qed.
Example C19_example2 :
  qname_eq (qname_from_helper (fun _ => Some "urn:a") "p:n") (qname_from_helper (fun _ => Some "urn:a") "q:n") = true.
Proof. reflexivity. Qed.

(** C20. *)
Theorem C20_split_lossless : forall raw ns,
  let q := QName raw (colon_pos raw) ns in
  match q_prefix q with
  | Some p => raw = p ++ ":" ++ q_local q /\ no_colon p
  | None => raw = q_local q /\ no_colon raw
  end.
Proof. exact qname_split. Qed.
Print Assumptions C20_split_lossless.

(** All public ways to build a QName from run-time data produce such records. *)
Theorem C20_constructors : forall raw ns resolve,
  qname_from_bytes raw = QName raw (colon_pos raw) None /\
  with_namespace (qname_from_bytes raw) ns = QName raw (colon_pos raw) (Some ns) /\
  without_namespace (with_namespace (qname_from_bytes raw) ns) = QName raw (colon_pos raw) None /\
  qname_from_helper resolve raw = QName raw (colon_pos raw) (resolve raw).
Proof. repeat split. Qed.

Example C20_example :
  q_prefix (qname_from_bytes "a:b:c") = Some "a" /\ q_local (qname_from_bytes "a:b:c") = "b:c".
Proof. split; reflexivity. Qed.

(** C50.  Injectivity fails because the backslash is not escaped; bytes above
    0x7F are not hexed. *)
Theorem C50_display_injective_refuted : exists a b,
  a <> b /\ format_utf8_slice a = format_utf8_slice b.
Proof.
  exists (String "000"%char EmptyString), "\x00". vm_compute; split; [discriminate|reflexivity].
Qed.
Print Assumptions C50_display_injective_refuted.

Theorem C50_non_ascii_refuted : exists c,
  nat_of_ascii c >= 128 /\
  exists d, In d (list_ascii_of_string (format_utf8_slice (String c EmptyString))) /\ nat_of_ascii d >= 128.
Proof.
  exists "200"%char. split; [apply Nat.leb_le; vm_compute; reflexivity|].
  exists "195"%char. split; [vm_compute; auto|apply Nat.leb_le; vm_compute; reflexivity].
Qed.
Print Assumptions C50_non_ascii_refuted.

(** Proved part: printable ASCII is unchanged, control bytes never reach the
    output, and texts without a backslash are displayed unambiguously. *)
Theorem C50_display_partial :
  (forall s, printable_ascii s -> format_utf8_slice s = s) /\
  (forall s d, In d (list_ascii_of_string (format_utf8_slice s)) ->
     32 <= nat_of_ascii d /\ nat_of_ascii d <> 127) /\
  (forall a b, ~ In "\"%char (list_ascii_of_string a) -> ~ In "\"%char (list_ascii_of_string b) ->
     format_utf8_slice a = format_utf8_slice b -> a = b).
Proof.
  split; [exact format_printable|]. split; [|exact format_inj].
  intros s d H. apply format_no_control in H. unfold is_ascii_control in H.
  apply orb_false_iff in H. destruct H as [H1 H2].
  apply Nat.ltb_ge in H1. apply Nat.eqb_neq in H2. auto.
Qed.
Print Assumptions C50_display_partial.

Example C50_example :
  format_utf8_slice (String "a" (String "000"%char "b")) = "a\x00b".
Proof. reflexivity. Qed.
