(** Independent specification of the texts and values of simple types (XML Schema 1.0,
    part 2). *)
From Verif Require Export FacetSpec.
From Verif Require Import SimpleModel.

(** 4.3.6: [s] is the text [t] after white space was normalized. *)
Definition normalizes (w : white) (t s : list N) : Prop :=
  match w with
  | WPreserve => s = t
  | WReplace => s = map (fun c => if xml_ws c then 32%N else c) t
  | WCollapse => exists l, words_of xml_ws l t /\ s = join_blank l
  end.

Definition white_facet (fs : list facet) : option white :=
  fold_left (fun o f => match f with FWhiteSpace w => Some w | _ => o end) fs None.

(** Slots of facets: a restriction has one facet for each of them at most.  [length] is
    a minimum and a maximum. *)
Inductive slot := SlStart | SlEnd | SlTotal | SlFraction | SlMin | SlMax.
Definition part (k : slot) (f : facet) : option facet :=
  match k, f with
  | SlStart, (FMinInclusive _ | FMinExclusive _) => Some f
  | SlEnd, (FMaxInclusive _ | FMaxExclusive _) => Some f
  | SlTotal, FTotalDigits _ => Some f
  | SlFraction, FFractionDigits _ => Some f
  | SlMin, FLength n => Some (FMinLength n)
  | SlMin, FMinLength _ => Some f
  | SlMax, FLength n => Some (FMaxLength n)
  | SlMax, FMaxLength _ => Some f
  | _, _ => None
  end.

Section Spec.
  (** [parse b]: the values of the built-in type [b], by their normalized texts.
      [builtin_white b]: how its texts are normalized.  [chars]: the length of a value, in
      characters or, for binary values, in octets.  [lt], [le]: their order. *)
  Context {atom : Type}.
  Variable parse : nat -> list N -> option atom.
  Variable builtin_white : nat -> white.
  Variable lt le : atom -> atom -> bool.
  Variable chars : atom -> nat.
  Variable matches : list N -> list N -> bool.

  Inductive xvalue := XAtom (a : atom) | XList (l : list xvalue) | XUnion (member : nat) (x : xvalue).

  Definition xlength (x : xvalue) : option nat :=
    match x with XAtom a => Some (chars a) | XList l => Some (length l) | XUnion _ _ => None end.

  (** 4.3.6: lists are collapsed, the members of unions are in charge of their texts. *)
  Fixpoint white_space (d : sdef) : white :=
    match d with
    | SBuiltin b false => builtin_white b
    | SBuiltin _ true | SList _ => WCollapse
    | SUnion _ => WPreserve
    | SRestriction _ base fs => match white_facet fs with Some w => w | None => white_space base end
    end.

  (** 4.3: the facets that concern a single value [x] with text [s]; [D] are the texts of
      the values of the base type. *)
  Definition holds (D : list N -> xvalue -> Prop) (f : facet) (s : list N) (x : xvalue) : Prop :=
    match f with
    | FLength n => forall k, xlength x = Some k -> k = n
    | FMinLength n => forall k, xlength x = Some k -> n <= k
    | FMaxLength n => forall k, xlength x = Some k -> k <= n
    | FMinInclusive v => forall a, x = XAtom a -> exists y, D v (XAtom y) /\ le y a = true
    | FMinExclusive v => forall a, x = XAtom a -> exists y, D v (XAtom y) /\ lt y a = true
    | FMaxInclusive v => forall a, x = XAtom a -> exists y, D v (XAtom y) /\ le a y = true
    | FMaxExclusive v => forall a, x = XAtom a -> exists y, D v (XAtom y) /\ lt a y = true
    | FTotalDigits n => exists g ip fp dot i k,
        decimal_literal s g ip fp dot /\ denotes_decimal g ip fp i k /\ total_ok n i k
    | FFractionDigits n => exists g ip fp dot i k,
        decimal_literal s g ip fp dot /\ denotes_decimal g ip fp i k /\ fraction_ok n i k
    | FEnumeration _ | FPattern _ | FWhiteSpace _ => True
    end.

  (** One of the patterns of a restriction matches, one of its enumerated values is the
      value, the other facets hold all. *)
  Definition facets_hold (D : list N -> xvalue -> Prop) (fs : list facet) (s : list N) (x : xvalue) : Prop :=
    (forall f, In f fs -> holds D f s x) /\
    ((exists p, In (FPattern p) fs) -> exists p, In (FPattern p) fs /\ matches p s = true) /\
    ((exists e, In (FEnumeration e) fs) -> exists e, In (FEnumeration e) fs /\ D e x).

  (** The text [t] is valid for the type [d], with value [x].  2.5.1.3: the value of a
      union is the value of the first member for which the text is valid. *)
  Fixpoint denotes (d : sdef) (t : list N) (x : xvalue) : Prop :=
    match d with
    | SBuiltin b false => exists s a, normalizes (builtin_white b) t s /\ parse b s = Some a /\ x = XAtom a
    | SBuiltin b true => exists l vs, words_of xml_ws l t /\ Forall2 (fun w a => parse b w = Some a) l vs /\ x = XList (map XAtom vs)
    | SList item => exists l xs, words_of xml_ws l t /\ Forall2 (denotes item) l xs /\ x = XList xs
    | SUnion members =>
        (fix first (i : nat) (l : list sdef) : Prop :=
           match l with
           | [] => False
           | m :: l' => (exists y, denotes m t y /\ x = XUnion i y) \/ (forall y, ~ denotes m t y) /\ first (S i) l'
           end) 0 members
    | SRestriction inline base fs => exists s,
        normalizes (white_space (SRestriction inline base fs)) t s /\ denotes base s x /\ facets_hold (denotes base) fs s x
    end.

  (** [v] is a value of the generated type that stands for [x]. *)
  Fixpoint stands (d : sdef) (v : value atom) (x : xvalue) : Prop :=
    match d with
    | SBuiltin _ false => exists a, v = VAtom a /\ x = XAtom a
    | SBuiltin _ true => exists l, v = VList (map VAtom l) /\ x = XList (map XAtom l)
    | SList item => exists vs xs, v = VList vs /\ x = XList xs /\ Forall2 (stands item) vs xs
    | SUnion members =>
        (fix at_ (i : nat) (l : list sdef) : Prop :=
           match l with
           | [] => False
           | m :: l' => (exists w y, v = VUnion i w /\ x = XUnion i y /\ stands m w y) \/ at_ (S i) l'
           end) 0 members
    | SRestriction _ base fs =>
        match v with
        | VEnum e => In (FEnumeration e) fs /\ denotes base e x
        | _ => stands base v x
        end
    end.

  (** ** Where the code is right *)

  (** Texts: words of visible ASCII characters with single blanks between them; if [dg],
      numbers have no plus sign and no redundant zeros. *)
  Definition canonical (w : list N) : Prop :=
    forall g ip fp dot, decimal_literal w g ip fp dot ->
      g <> Plus /\ (ip = [48%N] /\ fp = [] \/ exists c r, ip = c :: r /\ c <> 48%N) /\ (forall r c, fp = r ++ [c] -> c <> 48%N).
  Definition clear_word (dg : bool) (w : list N) : Prop :=
    w <> [] /\ Forall (fun c => (32 < c < 128)%N) w /\ (dg = true -> canonical w).
  Definition clear_text (dg : bool) (t : list N) : Prop :=
    exists l, t = join_blank l /\ Forall (clear_word dg) l.

  Inductive skind := KAtom (b : nat) | KList | KUnion.
  Fixpoint kind (d : sdef) : skind :=
    match d with
    | SBuiltin b false => KAtom b
    | SBuiltin _ true | SList _ => KList
    | SUnion _ => KUnion
    | SRestriction _ base _ => kind base
    end.

  Definition is_enumeration (f : facet) : bool := match f with FEnumeration _ => true | _ => false end.
  Definition is_pattern (f : facet) : bool := match f with FPattern _ => true | _ => false end.
  Definition is_length (f : facet) : bool := match f with FLength _ | FMinLength _ | FMaxLength _ => true | _ => false end.
  Definition is_digits (f : facet) : bool := match f with FTotalDigits _ | FFractionDigits _ => true | _ => false end.
  Definition is_bound (f : facet) : option (list N) :=
    match f with FMinInclusive v | FMinExclusive v | FMaxInclusive v | FMaxExclusive v => Some v | _ => None end.

  Fixpoint enumerated (d : sdef) : bool :=
    match d with SRestriction _ base fs => existsb is_enumeration fs || enumerated base | _ => false end.
  Fixpoint patterned (d : sdef) : bool :=
    match d with SRestriction _ base fs => existsb is_pattern fs || patterned base | _ => false end.
  Fixpoint has_digits (d : sdef) : bool :=
    match d with
    | SBuiltin _ _ => false
    | SList item => has_digits item
    | SUnion members => (fix any l := match l with [] => false | m :: l' => has_digits m || any l' end) members
    | SRestriction _ base fs => existsb is_digits fs || has_digits base
    end.

  (** The last whiteSpace facet of the derivation of [d]. *)
  Fixpoint stated_white (d : sdef) : option white :=
    match d with
    | SRestriction _ base fs => match white_facet fs with Some w => Some w | None => stated_white base end
    | _ => None
    end.

  (** The facets of a slot hold, in all steps of the derivation of [d]. *)
  Fixpoint slot_holds (k : slot) (d : sdef) (s : list N) (x : xvalue) : Prop :=
    match d with
    | SRestriction _ base fs =>
        slot_holds k base s x /\ forall f g, In f fs -> part k f = Some g -> holds (denotes base) g s x
    | _ => True
    end.

  Definition comparable (b : nat) : Prop :=
    forall s t x y, parse b s = Some x -> parse b t = Some y -> le x y = negb (lt y x).

  (** A step of a derivation: *)
  Definition plain_step (inline : bool) (base : sdef) (fs : list facet) : Prop :=
    let dg := has_digits (SRestriction inline base fs) in
    (** there is one step with patterns at most; *)
    ((exists p, In (FPattern p) fs) -> patterned base = false) /\
    (** facets fit the type, bounds are values of the base type; *)
    match kind base with
    | KAtom b =>
        (forall f v, In f fs -> is_bound f = Some v -> comparable b /\ clear_text dg v /\ exists y, denotes base v (XAtom y)) /\
        ~ In (FTotalDigits 0) fs
    | KList => forall f, In f fs -> is_enumeration f = true \/ is_length f = true
    | KUnion => (forall f, In f fs -> is_enumeration f = true) \/ (forall f, In f fs -> is_pattern f = true)
    end /\
    (** a facet is not given twice in a step, and if it is given again, then it is at
        least as strict; *)
    (forall i j f g k, nth_error fs i = Some f -> nth_error fs j = Some g ->
       part k f <> None -> part k g <> None -> i = j) /\
    (forall k, (exists f, In f fs /\ part k f <> None) -> forall s x,
       (forall f g, In f fs -> part k f = Some g -> holds (denotes base) g s x) -> slot_holds k base s x) /\
    (** enumerations are restricted by enumerations, not in line; *)
    (enumerated base = true -> existsb is_enumeration fs = true) /\
    (inline = true -> existsb is_enumeration fs = false) /\
    (** enumerated values are clear texts, the only ones of their values, and valid. *)
    (forall e, In (FEnumeration e) fs -> clear_text dg e /\
       (exists x, denotes (SRestriction inline base fs) e x) /\
       (forall t x, clear_text dg t -> denotes base t x -> denotes base e x -> t = e)).

  Fixpoint plain (d : sdef) : Prop :=
    match d with
    | SBuiltin _ _ => True
    | SList item => plain item
    | SUnion members => (fix all l := match l with [] => True | m :: l' => plain m /\ all l' end) members
    | SRestriction inline base fs => plain base /\ plain_step inline base fs
    end.
End Spec.
Arguments xvalue : clear implicits.
