(** What the particles of a schema mean, and when the names of members are distinct. *)
From Verif Require Import MetaModel MetaSpec OccursSpec FlatModel FlatSpec ContentModel.

(** The ways to compose words of the parts: one after the other, one of them, or all of
    them in any order (XML Schema Part 1, 3.8.4 "Element Sequence Valid"). *)
Inductive composed {A B} (P : A -> list B -> Prop) : compositor -> list A -> list B -> Prop :=
| co_sequence ps w : in_order P ps w -> composed P CSequence ps w
| co_choice ps p w : In p ps -> P p w -> composed P CChoice ps w
| co_all ps w : any_order P ps w -> composed P CAll ps w.

Section Meaning.
  Variable groups : tident -> option (compositor * list particle).

  (** The children the schema allows for a particle (3.9.4 "Element Sequence Locally
      Valid (Particle)"). *)
  Inductive says : particle -> list child -> Prop :=
  | says_element id t f mn mx nl n : within mn mx n -> says (PElement id t f mn mx nl) (repeat (id, KType t) n)
  | says_any id a mn mx n : within mn mx n -> says (PAny id a mn mx) (repeat (id, KAny) n)
  | says_group c mn mx ps n w : within mn mx n -> times (composed says c ps) n w -> says (PGroup c mn mx ps) w
  | says_ref g c mn mx ps n w : groups g = Some (c, ps) -> within mn mx n -> times (composed says c ps) n w ->
      says (PGroupRef g mn mx) w.

  (** The names of the elements that are direct parts of a group. *)
  Definition element_names (ps : list particle) : list pident :=
    flat_map (fun p => match p with PElement id _ _ _ _ _ => [id] | _ => [] end) ps.
  Definition any_names (ps : list particle) : list pident :=
    flat_map (fun p => match p with PAny id _ _ _ => [id] | _ => [] end) ps.

  (** Nothing is empty, and no group has two elements with the same name as direct
      parts. *)
  Inductive tidy : particle -> Prop :=
  | tidy_element id t f mn mx nl : tidy (PElement id t f mn mx nl)
  | tidy_any id a mn mx : tidy (PAny id a mn mx)
  | tidy_group c mn mx ps : ps <> [] -> NoDup (element_names ps) -> Forall tidy ps -> tidy (PGroup c mn mx ps)
  | tidy_ref g c mn mx ps : groups g = Some (c, ps) -> ps <> [] -> NoDup (element_names ps) -> Forall tidy ps ->
      tidy (PGroupRef g mn mx).
End Meaning.

(** The children a complex type allows; without content these are none. *)
Definition allows_children (ts : types) (x : complex_meta) (w : list child) : Prop :=
  match cx_content x with Some _ => complex_accepts ts x w | None => w = [] end.

(** The content of a complex type occurs exactly once. *)
Definition occurs_once (x : complex_meta) : Prop := cx_min x = 1 /\ cx_max x = Bounded 1.

(** The content of the base is a sequence. *)
Definition sequence_content (ts : types) (x : complex_meta) : Prop :=
  exists c ty g, cx_content x = Some c /\ lookup c ts = Some ty /\ m_variant ty = VSequence g.

(** The elements of the content of a complex type. *)
Definition content_elements (ts : types) (x : complex_meta) (es : list element_meta) : Prop :=
  exists c ty m g, cx_content x = Some c /\ lookup c ts = Some ty /\ group_of (m_variant ty) = Some (m, g) /\ gr_elements g = es.

(** Every group used by a group of the map is in the map. *)
Definition groups_present (ts : types) : Prop :=
  forall i ty m g e t, lookup i ts = Some ty -> group_of (m_variant ty) = Some (m, g) -> In e (gr_elements g) ->
    is_group e = Some t -> exists ty', lookup t ts = Some ty'.

(** A complex type that [base] stands for, directly or as the type of a dynamic type. *)
Inductive base_is (ts : types) : tident -> complex_meta -> Prop :=
| base_complex i ty x : lookup i ts = Some ty -> m_variant ty = VComplex x -> base_is ts i x
| base_dynamic i ty d j x : lookup i ts = Some ty -> m_variant ty = VDynamic d -> dy_type d = Some j -> base_is ts j x ->
    base_is ts i x.

(** The particle is the group [c] of [ps], given in place or by its name. *)
Inductive made_of (groups : tident -> option (compositor * list particle)) : particle -> compositor -> nat -> max_occurs -> list particle -> Prop :=
| made_group c mn mx ps : made_of groups (PGroup c mn mx ps) c mn mx ps
| made_ref g c mn mx ps : groups g = Some (c, ps) -> made_of groups (PGroupRef g mn mx) c mn mx ps.

(** The element declaration [p] is about the element [e]. *)
Definition redeclares (p : particle) (e : element_meta) : Prop :=
  match p with
  | PElement id t _ _ _ _ => el_ident e = id /\ el_variant e = EVType t ModeElement
  | _ => False
  end.

(** Wildcards have names of their own: they are in no namespace (number 0), elements are
    in one, and no two wildcards of a group have the same name. *)
Inductive apart (groups : tident -> option (compositor * list particle)) : particle -> Prop :=
| ap_element id t f mn mx nl : pi_ns id <> 0 -> apart groups (PElement id t f mn mx nl)
| ap_any id a mn mx : pi_ns id = 0 -> apart groups (PAny id a mn mx)
| ap_group c mn mx ps : NoDup (any_names ps) -> Forall (apart groups) ps -> apart groups (PGroup c mn mx ps)
| ap_ref g c mn mx ps : groups g = Some (c, ps) -> NoDup (any_names ps) -> Forall (apart groups) ps -> apart groups (PGroupRef g mn mx).

(** No group of the map has two elements with the same identifier. *)
Definition distinct_members (ts : types) : Prop :=
  forall i ty m g, lookup i ts = Some ty -> group_of (m_variant ty) = Some (m, g) -> NoDup (map el_ident (gr_elements g)).

(** Another element of the group has the same local name. *)
Definition namesake (es : list element_meta) (e : element_meta) : Prop :=
  exists e', In e' es /\ el_ident e' <> el_ident e /\ name_str (pi_name (el_ident e')) = name_str (pi_name (el_ident e)).

(** Elements are told apart by their namespace and their local name. *)
Definition told_apart (es : list element_meta) : Prop :=
  NoDup (map (fun e => (pi_ns (el_ident e), name_str (pi_name (el_ident e)))) es).

(** The names that will be generated are not in use. *)
Definition new_names (type_name : nat -> tident) (st : istate) : Prop :=
  forall n, s_next st <= n -> lookup (type_name n) (s_types st) = None.
