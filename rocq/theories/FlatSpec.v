(** The sequences of children a content model accepts. *)
From Verif Require Import MetaModel MetaSpec OccursSpec FlatModel.

(** A child: the element declaration it belongs to, given by its name and its type.
    Children matched by a wildcard differ only by the name of the wildcard, because the
    generated code does not look at the further conditions of a wildcard. *)
Inductive kind := KText | KAny | KType (t : tident).
Definition child := (pident * kind)%type.
Definition kind_of (v : element_variant) : kind :=
  match v with EVText => KText | EVAny _ => KAny | EVType t _ => KType t end.
Definition child_of (e : element_meta) : child := (el_ident e, kind_of (el_variant e)).
Definition is_group (e : element_meta) : option tident :=
  match el_variant e with EVType t ModeGroup => Some t | _ => None end.

Definition within (mn : nat) (mx : max_occurs) (n : nat) : Prop := mn <= n /\ allows mx n.

(** A word made of [n] words of the language [L]. *)
Inductive times {A} (L : list A -> Prop) : nat -> list A -> Prop :=
| times_none : times L 0 []
| times_more n v w : L v -> times L n w -> times L (S n) (v ++ w).

(** [w] mixes the letters of [u] and [v], keeping the order of each. *)
Inductive mixes {A} : list A -> list A -> list A -> Prop :=
| mix_nil : mixes [] [] []
| mix_left a u v w : mixes u v w -> mixes (a :: u) v (a :: w)
| mix_right a u v w : mixes u v w -> mixes u (a :: v) (a :: w).

(** One word of each part, one after the other or in any order. *)
Inductive in_order {A B} (P : A -> list B -> Prop) : list A -> list B -> Prop :=
| io_nil : in_order P [] []
| io_cons e es v w : P e v -> in_order P es w -> in_order P (e :: es) (v ++ w).
Inductive any_order {A B} (P : A -> list B -> Prop) : list A -> list B -> Prop :=
| ao_nil : any_order P [] []
| ao_cons e es u v w : P e u -> any_order P es v -> mixes u v w -> any_order P (e :: es) w.

(** The children accepted by the group [i] and by one part of a group. *)
Inductive accepts (ts : types) : tident -> list child -> Prop :=
| acc_sequence i ty g w : lookup i ts = Some ty -> m_variant ty = VSequence g ->
    in_order (part ts) (gr_elements g) w -> accepts ts i w
| acc_choice i ty g e w : lookup i ts = Some ty -> m_variant ty = VChoice g ->
    In e (gr_elements g) -> part ts e w -> accepts ts i w
| acc_all i ty g w : lookup i ts = Some ty -> m_variant ty = VAll g ->
    any_order (part ts) (gr_elements g) w -> accepts ts i w
with part (ts : types) : element_meta -> list child -> Prop :=
| part_group e t n w : is_group e = Some t -> within (el_min e) (el_max e) n ->
    times (accepts ts t) n w -> part ts e w
| part_child e n : is_group e = None -> within (el_min e) (el_max e) n -> part ts e (repeat (child_of e) n).

(** The children accepted by a complex type. *)
Definition complex_accepts (ts : types) (x : complex_meta) (w : list child) : Prop :=
  exists c n, cx_content x = Some c /\ within (cx_min x) (cx_max x) n /\ times (accepts ts c) n w.
Definition type_accepts (ts : types) (i : tident) (w : list child) : Prop :=
  exists ty x, lookup i ts = Some ty /\ m_variant ty = VComplex x /\ complex_accepts ts x w.

(** The names of the elements of a group, those of nested groups in place of these. *)
Inductive nested (ts : types) : tident -> list pident -> Prop :=
| nested_group i ty m g l : lookup i ts = Some ty -> group_of (m_variant ty) = Some (m, g) ->
    nested_all ts (gr_elements g) l -> nested ts i l
with nested_all (ts : types) : list element_meta -> list pident -> Prop :=
| na_nil : nested_all ts [] []
| na_child e es l : is_group e = None -> nested_all ts es l -> nested_all ts (e :: es) (el_ident e :: l)
| na_group e es t l1 l2 : is_group e = Some t -> nested ts t l1 -> nested_all ts es l2 -> nested_all ts (e :: es) (l1 ++ l2).

(** The group is a sequence, and all nested groups are sequences that occur at most
    once. *)
Inductive only_sequences (ts : types) : tident -> Prop :=
| os_group i ty g : lookup i ts = Some ty -> m_variant ty = VSequence g ->
    (forall e t, In e (gr_elements g) -> is_group e = Some t -> at_most (el_max e) (Bounded 1) /\ only_sequences ts t) ->
    only_sequences ts i.

(** Every choice has something to choose from. *)
Definition no_empty_choice (ts : types) : Prop :=
  forall i ty g, lookup i ts = Some ty -> m_variant ty = VChoice g -> gr_elements g <> [].

(** The names of the alternatives of a choice, those of nested choices in place of
    these; other nested groups are left out. *)
Inductive alternatives (ts : types) : list element_meta -> list pident -> Prop :=
| alt_nil : alternatives ts [] []
| alt_child e es l : is_group e = None -> alternatives ts es l -> alternatives ts (e :: es) (el_ident e :: l)
| alt_choice e es t ty g l1 l2 : is_group e = Some t -> lookup t ts = Some ty -> m_variant ty = VChoice g ->
    alternatives ts (gr_elements g) l1 -> alternatives ts es l2 -> alternatives ts (e :: es) (l1 ++ l2)
| alt_other e es t l : is_group e = Some t -> (forall ty g, lookup t ts = Some ty -> m_variant ty <> VChoice g) ->
    alternatives ts es l -> alternatives ts (e :: es) l.

(** No choice has two alternatives with the same name, as the rule of unique particle
    attribution demands. *)
Definition distinct_alternatives (ts : types) : Prop :=
  forall i ty g l, lookup i ts = Some ty -> m_variant ty = VChoice g -> alternatives ts (gr_elements g) l -> NoDup l.

(** The group [t] is the group [c] or is used, at any depth, inside of it. *)
Inductive inside (ts : types) : tident -> tident -> Prop :=
| in_self c : inside ts c c
| in_part c ty m g e t t' : lookup c ts = Some ty -> group_of (m_variant ty) = Some (m, g) ->
    In e (gr_elements g) -> is_group e = Some t -> inside ts t t' -> inside ts c t'.

(** [i] is a complex type with the content [c]. *)
Definition content_of (ts : types) (i c : tident) : Prop :=
  exists ty x, lookup i ts = Some ty /\ m_variant ty = VComplex x /\ cx_content x = Some c.

(** The content of a complex type is not used by any other complex type. *)
Definition private_contents (ts : types) : Prop :=
  forall i j c d, content_of ts i c -> content_of ts j d -> inside ts d c -> i = j.

(** The group keeps the order of its children, or the order does not matter: either no
    name occurs twice, or the children are not those of a sequence. *)
Definition order_kept (ts : types) (c : tident) : Prop :=
  (exists names, nested ts c names /\ NoDup names) \/ ~ only_sequences ts c.

(** The groups used inside of the group [c] end at some depth. *)
Inductive finite_group (ts : types) : tident -> Prop :=
| fg_group c : (forall ty m g e t, lookup c ts = Some ty -> group_of (m_variant ty) = Some (m, g) ->
    In e (gr_elements g) -> is_group e = Some t -> finite_group ts t) -> finite_group ts c.

(** At most one of the choice and its alternatives repeats, or the repetition is not
    bounded; and the choice is not used inside of itself. *)
Definition one_repeats (ts : types) (i c : tident) : Prop :=
  exists ty x tc g, lookup i ts = Some ty /\ m_variant ty = VComplex x /\ lookup c ts = Some tc /\ m_variant tc = VChoice g /\
    (at_most (cx_max x) (Bounded 1) \/ (forall e, In e (gr_elements g) -> at_most (el_max e) (Bounded 1)) \/
     cx_max x = Unbounded \/ exists e, In e (gr_elements g) /\ el_max e = Unbounded) /\
    forall e t, In e (gr_elements g) -> is_group e = Some t -> ~ inside ts t c.
