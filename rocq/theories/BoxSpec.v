(** What the properties of the generator say. *)
From Verif Require Export BoxModel.

(** In the generated code [a] keeps a value of type [b] in place: the size of [a] includes
    the size of [b]. *)
Definition keeps (out : list (tident * list field)) (a b : tident) : Prop :=
  exists fs f, In (a, fs) out /\ In f fs /\ f_target f = b /\ f_inline f = true.
(** ... as one of its elements. *)
Definition keeps_element (out : list (tident * list field)) (a b : tident) : Prop :=
  exists fs f, In (a, fs) out /\ In f fs /\ f_target f = b /\ f_inline f = true /\ f_element f = true.

(** [a1] is in relation to [a2], [a2] to [a3], and so on, the last one to [z]. *)
Fixpoint chain (R : tident -> tident -> Prop) (l : list tident) (z : tident) : Prop :=
  match l with
  | [] => True
  | [a] => R a z
  | a :: (b :: _) as l' => R a b /\ chain R l' z
  end.
(** ... and the last one to the first one. *)
Definition cycle (R : tident -> tident -> Prop) (l : list tident) : Prop :=
  match l with [] => False | a :: _ => chain R l a end.

(** [a] is part of the list [l] with the same order, other entries left out. *)
Inductive within {A} : list A -> list A -> Prop :=
| within_nil : within [] []
| within_skip x a l : within a l -> within a (x :: l)
| within_take x a l : within a l -> within (x :: a) (x :: l).

(** No type contains itself, which no finite size allows. *)
Definition finite_sizes (out : list (tident * list field)) : Prop :=
  forall l, ~ cycle (keeps out) l.

(** The types a generated type names. *)
Definition names (out : list (tident * list field)) (a b : tident) : Prop :=
  exists fs f, In (a, fs) out /\ In f fs /\ f_target f = b.

(** The element declarations of a type: those of a group, or of the group that is the
    content of a complex type. *)
Definition elements_of (ts : types) (v : variant) : list element_meta :=
  match v with
  | VAll g | VSequence g | VChoice g => gr_elements g
  | VComplex c =>
      match cx_content c with
      | Some i =>
          match option_map m_variant (get_resolved_type ts i) with
          | Some (VAll g) | Some (VSequence g) | Some (VChoice g) => gr_elements g
          | _ => []
          end
      | None => []
      end
  | _ => []
  end.

(** A type definition refers to another type: by an element that may occur, by an
    attribute or a variant that is not prohibited, as a member of a union, as a derived
    type, as the target of a reference, as its base, or as its simple content. *)
Inductive refers (ts : types) : variant -> tident -> Prop :=
| refers_element v e t mode : In e (elements_of ts v) -> el_max e <> Bounded 0 \/ el_min e <> 0 ->
    el_variant e = EVType t mode -> refers ts v t
| refers_attribute c a t : In a (cx_attrs c) -> at_use a <> UseProhibited -> at_variant a = AVType t ->
    refers ts (VComplex c) t
| refers_content c i v : cx_content c = Some i -> option_map m_variant (get_resolved_type ts i) = Some v ->
    (match v with VAll _ | VSequence _ | VChoice _ | VDynamic _ | VComplex _ => False | _ => True end) ->
    refers ts (VComplex c) i
| refers_union x u : In u (un_types x) -> refers ts (VUnion x) (ut_type u)
| refers_derived x p : In p (dy_derived x) -> refers ts (VDynamic x) (dt_type (snd p))
| refers_reference x : refers ts (VReference x) (rf_type x)
| refers_variant x e t : In e (en_variants x) -> ev_use e <> UseProhibited -> ev_type e = Some t ->
    refers ts (VEnumeration x) t
| refers_base x : refers ts (VSimple x) (sm_base x).

(** The type is one of the given ones, or one alternative of it is: the target of a
    reference that is not a list, a member of a union, or the type of a variant.  All
    types on the way have been asked for. *)
Inductive leads (ts : types) (known : tident -> Prop) (under : list tident) : tident -> Prop :=
| leads_here i : lookup i ts <> None -> known i -> In i under -> leads ts known under i
| leads_reference i ty x : lookup i ts = Some ty -> known i -> m_variant ty = VReference x ->
    is_direct (from_occurs (rf_min x) (rf_max x)) = true ->
    leads ts known under (rf_type x) -> leads ts known under i
| leads_union i ty x u : lookup i ts = Some ty -> known i -> m_variant ty = VUnion x ->
    In u (un_types x) -> leads ts known under (ut_type u) -> leads ts known under i
| leads_variant i ty x e t : lookup i ts = Some ty -> known i -> m_variant ty = VEnumeration x ->
    In e (en_variants x) -> ev_use e <> UseProhibited -> ev_type e = Some t ->
    leads ts known under t -> leads ts known under i.
