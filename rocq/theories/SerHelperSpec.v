(** Independent specification used for the serializer's namespace handling:
    what a namespace-aware XML reader sees. *)
From Verif Require Import SerHelperModel.
Local Open Scope string_scope.

(** The xmlns attributes written on the currently open tags, innermost tag
    first, and within a tag newest first. *)
Definition scope := list (list attr).

(** "Namespaces in XML" prefix lookup: the innermost declaration of the prefix
    wins.  [None] is the default namespace. *)
Definition scope_lookup (p : option bytes) (s : scope) : option bytes :=
  assoc (xmlns_key p) (concat s).

(** Effect of a call on the document being written: opening a scope opens a
    tag, closing closes the innermost one (the outermost level is never
    closed), and attributes are added to the innermost tag. *)
Definition open_tag (s : scope) : scope := [] :: s.
Definition close_tag (s : scope) : scope :=
  match s with
  | _ :: (f :: r) => f :: r
  | _ => s
  end.
Definition add_attrs (a : list attr) (s : scope) : scope :=
  match s with
  | f :: r => (rev a ++ f)%list :: r
  | [] => [rev a]
  end.

Definition dstep (hs : helper * scope) (o : hop) : helper * scope :=
  let (h, s) := hs in
  let (h', a) := hstep h o in
  (h', match o with
       | HBegin => open_tag s
       | HEnd => close_tag s
       | _ => add_attrs a s
       end).

Definition drun (hs : helper * scope) (ops : list hop) : helper * scope :=
  fold_left dstep ops hs.

(** The state reached by a whole history on a fresh helper. *)
Definition reach (ops : list hop) : helper * scope := drun (helper_default, [[]]) ops.

(** Well-bracketed call sequences: [depth n ops] is the nesting depth reached
    from depth [n], or [None] if a scope is closed that was not opened. *)
Fixpoint depth (n : nat) (ops : list hop) : option nat :=
  match ops with
  | [] => Some n
  | HBegin :: ops' => depth (S n) ops'
  | HEnd :: ops' => match n with 0 => None | S n' => depth n' ops' end
  | _ :: ops' => depth n ops'
  end.
Definition balanced (ops : list hop) : Prop := depth 0 ops = Some 0.

(** How a reader resolves the text of a QName value: prefix before the first
    colon, or the default namespace. *)
Definition read_qname (s : scope) (text : bytes) : option bytes * bytes :=
  match split_colon text with
  | Some (p, l) => (scope_lookup (Some p) s, l)
  | None => (scope_lookup None s, text)
  end.

(** No prefix is declared for two different namespaces on the open tags. *)
Definition functional_scope (s : scope) : Prop :=
  forall k v1 v2, In (k, v1) (concat s) -> In (k, v2) (concat s) -> v1 = v2.

Definition printable_ascii (s : bytes) : Prop :=
  forall c, In c (list_ascii_of_string s) ->
            32 <= nat_of_ascii c /\ nat_of_ascii c <> 127 /\ nat_of_ascii c < 128.

Definition no_colon (s : bytes) : Prop := ~ In ":"%char (list_ascii_of_string s).

(** Attributes of a sequence of [write_xmlns] requests on one tag. *)
Fixpoint write_all (h : helper) (reqs : list (option bytes * bytes)) : helper * list attr :=
  match reqs with
  | [] => (h, [])
  | (p, ns) :: reqs' =>
      let (h1, a1) := write_xmlns h p ns in
      let (h2, a2) := write_all h1 reqs' in
      (h2, (a1 ++ a2)%list)
  end.
