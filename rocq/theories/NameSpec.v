(** What the properties of names say. *)
From Coq Require Import NArith Ascii.
From Verif Require Export NameModel.

(** The keywords of the Rust reference (edition 2021), strict and reserved; [union] and
    the like are not reserved. *)
Definition reserved : list text :=
  map t_ ["as"; "break"; "const"; "continue"; "crate"; "else"; "enum"; "extern"; "false"; "fn"; "for"; "if"; "impl";
          "in"; "let"; "loop"; "match"; "mod"; "move"; "mut"; "pub"; "ref"; "return"; "self"; "Self"; "static";
          "struct"; "super"; "trait"; "true"; "type"; "unsafe"; "use"; "where"; "while"; "async"; "await"; "dyn";
          "abstract"; "become"; "box"; "do"; "final"; "macro"; "override"; "priv"; "typeof"; "unsized"; "virtual";
          "yield"; "try"]%string.

(** The keywords the program does not know. *)
Definition unknown_keywords : list text := map t_ ["async"; "await"; "dyn"]%string.

Section Valid.
  (** The Unicode properties XID_Start and XID_Continue. *)
  Variables xid_start xid_continue : N -> bool.

  (** An identifier of Rust: a letter, or an underscore and something more, and it is not
      reserved. *)
  Definition valid_ident (s : text) : Prop :=
    match s with
    | [] => False
    | c :: r =>
        (xid_start c = true \/ (c = underscore /\ r <> [])) /\
        Forall (fun d => xid_continue d = true) r /\ ~ In s reserved
    end.

  (** Characters whose three Unicode properties fit together as they do for every
      character of ASCII, Latin, Greek, Cyrillic, ... letters and decimal digits. *)
  Definition plain_char (alphabetic numeric : N -> bool) (c : N) : Prop :=
    (alphabetic c = true -> numeric c = false -> xid_start c = true) /\
    (alphabetic c = true \/ numeric c = true -> xid_continue c = true).
End Valid.

(** The classes of ASCII, for the examples. *)
Definition in_range (a b c : N) : bool := N.leb a c && N.leb c b.
Definition ascii_letter (c : N) : bool := in_range 65 90 c || in_range 97 122 c.
Definition ascii_digit (c : N) : bool := in_range 48 57 c.
Definition ascii_word (c : N) : bool := ascii_letter c || ascii_digit c || N.eqb c underscore.

(** What is true of the ASCII part of Unicode. *)
Record ascii_facts (alphabetic numeric xid_start xid_continue : N -> bool) : Prop := {
  af_letter : forall c, ascii_letter c = true -> alphabetic c = true /\ numeric c = false /\
    xid_start c = true /\ xid_continue c = true;
  af_under : xid_continue underscore = true }.

(** A single character that is neither a letter nor a number. *)
Definition lone_symbol (alphabetic numeric : N -> bool) (s : text) : Prop :=
  exists c, s = [c] /\ alphabetic c = false /\ numeric c = false.

(** * Unique names *)

(** What can happen to name builders that share a counter; builders are numbered in the
    order of their creation. *)
Inductive builder_op :=
| ONew | OClone (k : nat) | OSetName (k : nat) (s : string) | OWithId (k : nat) (v : bool) | OGenerated (k : nat) (v : bool)
| OExtend (k : nat) (replace : bool) (s : string) | OMerge (k j : nat) | OUnique (k : nat) | OFinish (k : nat).

(** A finished name: the text before the number, the number, and whether the number was
    taken for this name (or is one the builder had). *)
Record finished := Finished { fi_name : name; fi_text : string; fi_id : option nat; fi_fresh : bool }.

Section Run.
  Variable unify_s : string -> string.

  Definition base_text (b : builder) : string :=
    match fst (builder_finish unify_s (set_with_id false b) 0) with Named s => s | Generated s => s end.
  Definition finished_of (b : builder) (counter : nat) : finished :=
    Finished (fst (builder_finish unify_s b counter)) (base_text b)
      (if b_with_id b then Some (match b_my_id b with Some i => i | None => counter end) else None)
      (b_with_id b && match b_my_id b with None => true | Some _ => false end).

  Fixpoint update {A} (k : nat) (f : A -> A) (l : list A) : list A :=
    match l, k with
    | [], _ => []
    | a :: l', 0 => f a :: l'
    | a :: l', S k => a :: update k f l'
    end.

  Record bstate := BState { bs_builders : list builder; bs_counter : nat; bs_out : list finished }.

  Definition builder_step (s : bstate) (o : builder_op) : bstate :=
    let '(BState bs c out) := s in
    match o with
    | ONew => BState (bs ++ [builder_new]) c out
    | OClone k => match nth_error bs k with Some b => BState (bs ++ [b]) c out | None => s end
    | OSetName k n => BState (update k (set_name n) bs) c out
    | OWithId k v => BState (update k (set_with_id v) bs) c out
    | OGenerated k v => BState (update k (set_generated v) bs) c out
    | OExtend k r e => BState (update k (add_extension unify_s r e) bs) c out
    | OMerge k j =>
        match nth_error bs j with Some b => BState (update k (fun a => builder_merge a b) bs) c out | None => s end
    | OUnique k =>
        match nth_error bs k with
        | Some b => let '(b', c') := generate_unique_id b c in BState (update k (fun _ => b') bs) c' out
        | None => s
        end
    | OFinish k =>
        match nth_error bs k with
        | Some b => BState bs (snd (builder_finish unify_s b c)) (out ++ [finished_of b c])
        | None => s
        end
    end.
  Definition builder_run (l : list builder_op) : bstate := fold_left builder_step l (BState [] 0 []).
End Run.

(** The text ends in a decimal digit. *)
Definition ends_in_digit (s : string) : Prop :=
  exists r c, s = (r ++ String c "")%string /\ ascii_digit (N_of_ascii c) = true.
