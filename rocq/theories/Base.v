(** Shared vocabulary: byte strings, XML attributes and XML events.

    Rust [&[u8]], [Vec<u8>], [String] and [&str] values are modelled as Coq
    [string]s, i.e. sequences of 8-bit characters (a Rust string is its UTF-8
    byte sequence). *)
From Coq Require Export String Ascii Bool Arith List Lia.
Export ListNotations.

Global Arguments Nat.ltb : simpl never.

Notation bytes := string (only parsing).

(** An attribute as pushed onto / read from a [BytesStart]: raw key and raw
    (escaped) value. *)
Definition attr := (bytes * bytes)%type.

(** The events of [quick_xml::events::Event].  Payloads are raw bytes.
    Simplification: the declaration, doctype and processing-instruction
    payloads are kept as opaque bytes. *)
Inductive event : Type :=
| EStart (name : bytes) (attrs : list attr)
| EEmpty (name : bytes) (attrs : list attr)
| EEnd (name : bytes)
| EText (raw : bytes)
| ECData (raw : bytes)
| EComment (raw : bytes)
| ERef (raw : bytes)
| EPI (raw : bytes)
| EDecl (raw : bytes)
| EDocType (raw : bytes)
| EEof.

(** Result of a fallible Rust function; [Panic] is a panic or an abort
    (stack overflow). *)
Inductive outcome (E A : Type) : Type :=
| Ok (a : A)
| Err (e : E)
| Panic.
Arguments Ok {E A} _.
Arguments Err {E A} _.
Arguments Panic {E A}.

Definition opt_eqb (a b : option bytes) : bool :=
  match a, b with
  | None, None => true
  | Some x, Some y => String.eqb x y
  | _, _ => false
  end.

(** [str.starts_with] *)
Fixpoint starts_with (p s : string) : bool :=
  match p, s with
  | EmptyString, _ => true
  | String _ _, EmptyString => false
  | String c p', String d s' => Ascii.eqb c d && starts_with p' s'
  end.

(** Association list lookup by byte string. *)
Fixpoint assoc {V} (k : bytes) (l : list (bytes * V)) : option V :=
  match l with
  | [] => None
  | (k', v) :: l' => if String.eqb k k' then Some v else assoc k l'
  end.

Definition is_some {A} (o : option A) : bool :=
  match o with Some _ => true | None => false end.

Lemma opt_eqb_eq a b : opt_eqb a b = true <-> a = b.
Proof.
  destruct a as [x|], b as [y|]; cbn; split; intros H; try congruence.
  - apply String.eqb_eq in H; congruence.
  - injection H as ->; apply String.eqb_refl.
Qed.

Lemma opt_eqb_refl a : opt_eqb a a = true.
Proof. apply opt_eqb_eq; reflexivity. Qed.

Lemma assoc_in {V} k (l : list (bytes * V)) v : assoc k l = Some v -> In (k, v) l.
Proof.
  induction l as [|[k' v'] l IH]; cbn; [discriminate|].
  destruct (String.eqb_spec k k') as [->|Hne]; intros H.
  - injection H as ->; left; reflexivity.
  - right; apply IH, H.
Qed.

Lemma assoc_none {V} k (l : list (bytes * V)) : assoc k l = None <-> ~ In k (map fst l).
Proof.
  induction l as [|[k' v'] l IH]; cbn; [tauto|].
  destruct (String.eqb_spec k k') as [->|Hne].
  - split; [discriminate|intros H; exfalso; apply H; left; reflexivity].
  - rewrite IH; split; intros H; [intros [E|E]; [congruence|tauto]|tauto].
Qed.

Lemma assoc_app {V} k (l1 l2 : list (bytes * V)) :
  assoc k (l1 ++ l2) = match assoc k l1 with Some v => Some v | None => assoc k l2 end.
Proof.
  induction l1 as [|[k' v'] l1 IH]; cbn; [reflexivity|].
  destruct (String.eqb k k'); [reflexivity|apply IH].
Qed.
