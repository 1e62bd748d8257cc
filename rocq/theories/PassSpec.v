(** What the passes over dynamic and mixed types are for. *)
From Verif Require Import MetaModel MetaSpec OccursSpec OptSpec FlatModel FlatSpec PassModel.

(** ** Merging dynamic types *)

(** The entry [e] of a dynamic type stands for the type [base]. *)
Definition stands_for_base (ts : types) (base : tident) (e : tident * derived_meta) : Prop :=
  get_resolved_ident ts (dt_type (snd e)) = Some base.
Definition dynamic_entries (ts : types) (i : tident) (d : list (tident * derived_meta)) : Prop :=
  exists ty dm, lookup i ts = Some ty /\ m_variant ty = VDynamic dm /\ dy_derived dm = d.

(** The entries [l] with those that stand for the dynamic type [base] replaced by the
    entries of that type. *)
Inductive expanded (ts : types) (base : tident) : list (tident * derived_meta) -> list (tident * derived_meta) -> Prop :=
| exp_nil : expanded ts base [] []
| exp_keep e l l' : ~ (stands_for_base ts base e /\ exists d, dynamic_entries ts base d) ->
    expanded ts base l l' -> expanded ts base (e :: l) (e :: l')
| exp_base e l l' d d' : stands_for_base ts base e -> dynamic_entries ts base d -> expanded ts base d d' ->
    expanded ts base l l' -> expanded ts base (e :: l) (d' ++ l').

(** The dynamic type [base] has an entry that stands for [base] itself. *)
Definition loops_at (ts : types) (base : tident) : Prop :=
  exists d e, dynamic_entries ts base d /\ In e d /\ stands_for_base ts base e.

Definition same_key (a b : tident * derived_meta) : Prop := fst a = fst b.

(** ** Dynamic types as choices *)

(** The entries with the same namespace and the same name. *)
Definition same_property (a b : tident * derived_meta) : Prop :=
  ti_ns (fst a) = ti_ns (fst b) /\ ti_name (fst a) = ti_name (fst b).

(** Is the element chosen by [xsi:type], by its tag, if there is no [xsi:type]? *)
Definition by_type (e : element_meta) : bool := Nat.testbit (el_flags e) 3.
Definition by_tag (e : element_meta) : bool := Nat.testbit (el_flags e) 2.
Definition by_default (e : element_meta) : bool := Nat.testbit (el_flags e) 1.

(** The element [e] represents the entry [p] and all entries of [d] with the same name. *)
Definition represents (form : form_meta) (d : list (tident * derived_meta)) (p : tident * derived_meta) (e : element_meta) : Prop :=
  el_ident e = PIdent (ti_ns (fst p)) (ti_name (fst p)) /\
  el_variant e = EVType (dt_type (snd p)) ModeElement /\ el_form e = form /\
  el_min e = 1 /\ el_max e = Bounded 1 /\ el_display e = dt_display (snd p) /\
  (by_type e = true <-> exists q, In q d /\ same_property p q /\ ti_type (fst q) = ITType) /\
  (by_tag e = true <-> exists q, In q d /\ same_property p q /\ ti_type (fst q) = ITElement) /\
  (by_default e = true <-> exists q, In q d /\ same_property p q /\ ti_type (fst q) = ITType /\ dt_rel (snd q) = RelConcrete).

(** [es] are the alternatives for the entries [d]: one for each name. *)
Definition alternatives_of (form : form_meta) (d : list (tident * derived_meta)) (es : list element_meta) : Prop :=
  exists l, firsts same_property [] d l /\ Forall2 (represents form d) l es.

(** The type [ty] with the name [i] in [ts] was a dynamic type and is, in [ts'], a choice
    with the content [c]. *)
Definition chosen (ts ts' : types) (i : tident) (ty : mtype) (dm : dynamic_meta) (c : tident) : Prop :=
  lookup i ts' = Some (set_variant ty (VComplex (ComplexMeta BaseNone (Some c) 1 (Bounded 1) true false []))) /\
  lookup c ts = None /\
  exists tc es, lookup c ts' = Some tc /\ alternatives_of (form_of ty) (dy_derived dm) es /\
    m_variant tc = (match es with [] => VSequence (GroupMeta false []) | _ => VChoice (GroupMeta false es) end).

(** No type has a name the naming still has to generate. *)
Definition unused_names (ts : types) (counter : nat) : Prop :=
  forall n i, counter <= n -> In i (map fst ts) -> ti_name i <> Generated (("Content" ++ NameModel.show_id n)%string).

(** ** Mixed types *)

(** The children with the texts made anonymous. *)
Definition shape (w : list child) : list (option child) :=
  map (fun c => match snd c with KText => None | _ => Some c end) w.
Definition is_child (c : child) : bool := match snd c with KText => false | _ => true end.

(** [u] are the children [w] with at most one text in front of each child and at most one
    at the end; with any number of texts. *)
Inductive spaced : list child -> list (option child) -> Prop :=
| sp_nil : spaced [] []
| sp_end : spaced [] [None]
| sp_child c w u : spaced w u -> spaced (c :: w) (Some c :: u)
| sp_text c w u : spaced w u -> spaced (c :: w) (None :: Some c :: u).
Inductive mixed_with_texts : list child -> list (option child) -> Prop :=
| mt_nil : mixed_with_texts [] []
| mt_child c w u : mixed_with_texts w u -> mixed_with_texts (c :: w) (Some c :: u)
| mt_text w u : mixed_with_texts w u -> mixed_with_texts w (None :: u).

(** An element of its own, not a group, and not a text. *)
Definition real_element (e : element_meta) : Prop := is_group e = None /\ el_variant e <> EVText.

(** The complex type [x] with the name [i] is one the pass is made for: it is mixed, and
    its content is a sequence of elements that occur at most once, or a choice repeated
    without bound. *)
Definition suitable (ts : types) (i : tident) (x : complex_meta) (c : tident) (m : gmode) (g : group_meta) : Prop :=
  (exists ty, lookup i ts = Some ty /\ m_variant ty = VComplex x) /\ cx_mixed x = true /\ cx_content x = Some c /\
  (exists tc, lookup c ts = Some tc /\ group_of (m_variant tc) = Some (m, g)) /\
  ((m = GSequence /\ forall e, In e (gr_elements g) -> el_min e <= 1 /\ el_max e = Bounded 1) \/
   (m = GChoice /\ cx_max x = Unbounded)).

(** The contents of complex types are types of their own: no alias, and not shared. *)
Definition own_contents (ts : types) : Prop :=
  (forall i c, content_of ts i c -> forall d, ~ plain_step ts c d) /\
  (forall i j c, content_of ts i c -> content_of ts j c -> i = j).

(** The second list is the first one with texts added. *)
Inductive texts_added : list element_meta -> list element_meta -> Prop :=
| ta_nil : texts_added [] []
| ta_keep e l l' : texts_added l l' -> texts_added (e :: l) (e :: l')
| ta_text e l l' : el_variant e = EVText -> texts_added l l' -> texts_added l (e :: l').
