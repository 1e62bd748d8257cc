(** When the text that is written for a value of a simple type is read as the same value. *)
From Verif Require Export FacetSpec.
From Verif Require Import SimpleModel SimpleWriteModel.

(** A word of visible ASCII characters. *)
Definition word (w : list N) : Prop := w <> [] /\ Forall (fun c => (32 < c < 128)%N) w.

(** The texts that are written for the items of a list, if anything is. *)
Definition written {A : Type} (item : A -> option (list N)) (l : list A) : list (list N) :=
  flat_map (fun v => match item v with Some b => [b] | None => [] end) l.

Section Spec.
  Context {atom : Type}.
  Variable parse : nat -> list N -> option atom.
  Variable lt le : atom -> atom -> bool.
  Variable size : atom -> nat.
  Variable matches : list N -> list N -> bool.
  Variable print : atom -> list N.
  Variable print_fixed : nat -> atom -> list N.

  Notation read := (read parse lt le size matches).
  Notation write := (write print print_fixed).
  Notation builds := (builds parse lt le size).

  (** ** Built-in types *)

  (** Strings: their values are their texts. *)
  Definition verbatim (b : nat) : Prop := forall s a, parse b s = Some a -> print a = s.
  (** Numbers and truth values: the printed text is a word, and is read as the value. *)
  Definition numeric (b : nat) : Prop :=
    forall s a, parse b s = Some a -> word (print a) /\ parse b (print a) = Some a.
  (** The printed text has no more digits than any other text of the value. *)
  Definition shortest (b : nat) : Prop :=
    forall s a n, parse b s = Some a -> total_digits s n = Ok tt -> total_digits (print a) n = Ok tt.
  (** A value with [n] fraction digits at most is printed with [n] digits as it is, and as
      an integer if [n] is 0. *)
  Definition fixed_point (b n : nat) : Prop :=
    forall s a, parse b s = Some a -> fraction_digits s n = Ok tt ->
      word (print_fixed n a) /\ parse b (print_fixed n a) = Some a /\
      fraction_digits (print_fixed n a) n = Ok tt /\
      (n = 0 -> forall k, total_digits s k = Ok tt -> total_digits (print_fixed n a) k = Ok tt).

  (** ** Types *)

  (** Types without lists whose values are written as they were read. *)
  Fixpoint unchanged (m : smeta) : Prop :=
    match m with
    | MBuildIn b => verbatim b
    | MRef ty l => l = false /\ unchanged ty
    | MSimple base l c => l = false /\ c_white c = WPreserve /\ c_fraction c = None /\ unchanged base
    | MEnum _ _ => True
    | MUnion c types => c_white c = WPreserve /\
        (fix all l := match l with [] => True | m :: l' => unchanged m /\ all l' end) types
    end.

  (** Types of items: no lists; texts are not collapsed, or numbers. *)
  Fixpoint one_word (m : smeta) : Prop :=
    match m with
    | MBuildIn _ => True
    | MRef ty l => l = false /\ one_word ty
    | MSimple base l c => l = false /\ one_word base /\
        (c_white c <> WCollapse \/ exists b, base = MBuildIn b /\ numeric b)
    | MEnum _ _ => True
    | MUnion c types => c_white c <> WCollapse /\
        (fix all l := match l with [] => True | m :: l' => one_word m /\ all l' end) types
    end.

  (** Members of a union: no text that is written for the member [m] is taken by the
      member [m0] before it, unless [m0] took the text that was read as well. *)
  Definition apart (m0 m : smeta) : Prop :=
    forall t v, read m t = Ok v -> (forall v0, read m0 t <> Ok v0) ->
      forall v0, read m0 (shown (write m v)) <> Ok v0.
  Definition members_apart (types : list smeta) : Prop :=
    forall i j m0 m, i < j -> nth_error types i = Some m0 -> nth_error types j = Some m -> apart m0 m.

  (** The digits of a restriction of [base]: with fraction digits no total digits, unless
      the values are integers. *)
  Definition digits_fit (base : smeta) (c : constrains) : Prop :=
    (c_total c = None /\ c_fraction c = None) \/
    exists b, base = MBuildIn b /\ numeric b /\
      match c_fraction c with
      | None => shortest b
      | Some n => fixed_point b n /\ (n = 0 \/ c_total c = None)
      end.

  (** The types for which reading, writing and reading again is reading once. *)
  Fixpoint writes_back (m : smeta) : Prop :=
    match m with
    | MBuildIn b => verbatim b \/ numeric b
    | MRef ty l => writes_back ty /\ (l = true -> one_word ty)
    | MSimple base l c =>
        writes_back base /\ digits_fit base c /\
        (if l then one_word base /\ has_validation c = false
         else c_patterns c = [] \/ unchanged base /\ c_fraction c = None)
    | MEnum _ _ => True
    | MUnion c types =>
        (fix all l := match l with [] => True | m :: l' => writes_back m /\ all l' end) types /\
        members_apart types /\ c_total c = None /\ c_fraction c = None /\
        (c_patterns c = [] \/ (fix all l := match l with [] => True | m :: l' => unchanged m /\ all l' end) types)
    end.

  (** ** Values that are built *)

  (** Everything that is written for values of the type is a word. *)
  Definition words_only (m : smeta) : Prop :=
    forall v, builds m v -> exists w, write m v = Some w /\ word w.

  (** The types for which writing and reading is the identity. *)
  Fixpoint reads_back (m : smeta) : Prop :=
    match m with
    | MBuildIn b => verbatim b \/ numeric b
    | MRef ty l => reads_back ty /\ (l = true -> words_only ty)
    | MSimple base l c =>
        reads_back base /\ c_total c = None /\ c_fraction c = None /\ c_patterns c = [] /\
        (c_white c = WPreserve \/ words_only base) /\ (l = true -> words_only base)
    | MEnum c _ => c_total c = None /\ c_fraction c = None /\ c_patterns c = []
    | MUnion c types =>
        (fix all l := match l with [] => True | m :: l' => reads_back m /\ all l' end) types /\
        c_total c = None /\ c_fraction c = None /\ c_patterns c = [] /\
        (c_white c = WPreserve \/ Forall words_only types) /\
        (forall i j m0 m v, i < j -> nth_error types i = Some m0 -> nth_error types j = Some m ->
           builds m v -> forall v0, read m0 (shown (write m v)) <> Ok v0)
    end.
End Spec.
