(** What the passes over references, unions and enumerations are for. *)
From Verif Require Import MetaModel MetaSpec OptModel.

(** [e] is what the alias [i] finally stands for: the chain of plain type definitions
    starting at [i] ends in [e].  [e] need not be defined. *)
Definition alias_end (ts : types) (i e : tident) : Prop := leads ts i e /\ forall c, ~ plain_step ts e c.

(** The identifiers used by a type, in order. *)
Definition opt_uses (o : option tident) : list tident := match o with Some t => [t] | None => [] end.
Definition base_uses (b : base_meta) : list tident := match b with BaseNone => [] | BaseExt t | BaseRes t => [t] end.
Definition group_uses (g : group_meta) : list tident :=
  flat_map (fun e => match el_variant e with EVType t _ => [t] | _ => [] end) (gr_elements g).
Definition uses (v : variant) : list tident :=
  match v with
  | VUnion x => base_uses (un_base x) ++ map ut_type (un_types x)
  | VReference x => [rf_type x]
  | VEnumeration x => base_uses (en_base x) ++ flat_map (fun e => opt_uses (ev_type e)) (en_variants x)
  | VDynamic x => opt_uses (dy_type x) ++ flat_map (fun e => [fst e; dt_type (snd e)]) (dy_derived x)
  | VAll g | VChoice g | VSequence g => group_uses g
  | VComplex x =>
      base_uses (cx_base x) ++ opt_uses (cx_content x) ++
      flat_map (fun a => match at_variant a with AVType t => [t] | AVAny _ => [] end) (cx_attrs x)
  | VSimple x => [sm_base x]
  | VBuildIn _ | VCustom _ => []
  end.

(** The uses the pass is meant to redirect: not the base of a simple type, nor the
    target of a repeated or optional reference, nor the keys of a dynamic type. *)
Definition direct_uses (v : variant) : list tident :=
  match v with
  | VSimple _ => []
  | VReference x => if ref_single x then [rf_type x] else []
  | VDynamic x => opt_uses (dy_type x) ++ map (fun e => dt_type (snd e)) (dy_derived x)
  | _ => uses v
  end.

(** The type without the identifiers it uses. *)
Definition no_ident : tident := TIdent 0 0 (Named "") ITType.
Definition erased (v : variant) : variant := rename (fun _ => no_ident) v.

(** The cached type definitions, if any, give the end of an alias exactly if it has
    one. *)
Definition cache_ok (o : optimizer) : Prop :=
  match o_typedefs o with
  | None => True
  | Some m => forall i e, td_resolve m i = Some e <-> alias_end (o_types o) i e
  end.

(** [b] is the base the type [i] restricts: a list or simple type restricts its base,
    the others restrict a base of the same kind. *)
Definition restricts (ts : types) (i b : tident) : Prop :=
  exists ty, lookup i ts = Some ty /\
  match m_variant ty with
  | VSimple x => sm_base x = b
  | VEnumeration x => en_base x = BaseRes b /\ exists tb y, lookup b ts = Some tb /\ m_variant tb = VEnumeration y
  | VUnion x => un_base x = BaseRes b /\ exists tb y, lookup b ts = Some tb /\ m_variant tb = VUnion y
  | VComplex x => cx_base x = BaseRes b /\ exists tb y, lookup b ts = Some tb /\ m_variant tb = VComplex y
  | _ => False
  end.
Inductive restricts_all (ts : types) : tident -> tident -> Prop :=
| ra_refl i : restricts_all ts i i
| ra_step i j k : restricts ts i j -> restricts_all ts j k -> restricts_all ts i k.
Definition no_restriction_loops (ts : types) : Prop := forall i j, restricts ts i j -> ~ restricts_all ts j i.

(** [l'] has exactly the elements of [l] that satisfy [P], in the same order. *)
Inductive kept {A} (P : A -> Prop) : list A -> list A -> Prop :=
| kept_nil : kept P [] []
| kept_yes a l l' : P a -> kept P l l' -> kept P (a :: l) (a :: l')
| kept_no a l l' : ~ P a -> kept P l l' -> kept P (a :: l) l'.

(** [l'] has the elements of [l], in the same order, that are not the same as one before
    them. *)
Inductive firsts {A} (same : A -> A -> Prop) : list A -> list A -> list A -> Prop :=
| firsts_nil before : firsts same before [] []
| firsts_new before a l l' : (forall b, In b before -> ~ same a b) ->
    firsts same (before ++ [a]) l l' -> firsts same before (a :: l) (a :: l')
| firsts_old before a l l' b : In b before -> same a b ->
    firsts same (before ++ [a]) l l' -> firsts same before (a :: l) l'.

(** The kinds of types the flags of [use_unrestricted_base_type] ask for; lists are not
    simple types in this sense. *)
Inductive asked (fl : base_flags) : variant -> Prop :=
| asked_complex x : bf_complex fl = true -> asked fl (VComplex x)
| asked_simple x : bf_simple fl = true -> sm_list x = false -> asked fl (VSimple x)
| asked_enum x : bf_enum fl = true -> asked fl (VEnumeration x)
| asked_union x : bf_union fl = true -> asked fl (VUnion x).
