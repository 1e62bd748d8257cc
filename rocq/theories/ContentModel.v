(** Content models of complex types: from the particles of a schema to the types
    (xsd-parser/src/pipeline/interpreter/state/generate_types/variant_processor.rs and
    fix_element_naming_conflicts.rs). *)
From Coq Require Import NArith.
From Coq Require DecimalString.
From Verif Require Export FlatModel.

Inductive compositor := CAll | CChoice | CSequence.

(** schema/xs [GroupTypeContent]: what an [xs:all], [xs:choice] or [xs:sequence]
    contains.  Simplification: names and types are resolved, the identifier of a wildcard
    is the one the name builder gives it, annotations are left out. *)
Inductive particle :=
| PElement (id : pident) (t : tident) (f : form_meta) (mn : nat) (mx : max_occurs) (nl : option bool)
| PAny (id : pident) (a : any_meta) (mn : nat) (mx : max_occurs)
| PGroup (c : compositor) (mn : nat) (mx : max_occurs) (ps : list particle)
| PGroupRef (g : tident) (mn : nat) (mx : max_occurs).

(** interpreter/error.rs: only the errors of the code modelled here. *)
Inductive content_error := TypeAlreadyDefined (t : tident) | ExpectedComplexType (t : tident).

(** The part of the state of the type processor used here: the types, the group cache of
    the type that is created (type_processor.rs 174-177) and the number of names
    generated so far. *)
Record istate := IState { s_types : types; s_cache : list (tident * tident); s_next : nat }.

(** element.rs 54, 70-74. *)
Definition default_flags : nat := 4.
Definition set_nillable (b : bool) (flags : nat) : nat := if b then Nat.lor flags 1 else Nat.ldiff flags 1.

(** element.rs 128-161 [ElementMeta::new], [ElementMeta::any]. *)
Definition element_new (id : pident) (t : tident) (m : element_mode) (f : form_meta) : element_meta :=
  ElementMeta id (EVType t m) f default_flags 1 (Bounded 1) None [].
Definition element_any (id : pident) (a : any_meta) : element_meta :=
  ElementMeta id (EVAny a) Unqualified default_flags 1 (Bounded 1) None [].
Definition set_display (d : option string) (e : element_meta) : element_meta :=
  ElementMeta (el_ident e) (el_variant e) (el_form e) (el_flags e) (el_min e) (el_max e) d (el_doc e).

(** update.rs 34-46. *)
Definition update_element (mn : nat) (mx : max_occurs) (nl : option bool) (e : element_meta) : element_meta :=
  ElementMeta (el_ident e) (el_variant e) (el_form e)
    (match nl with Some b => set_nillable b (el_flags e) | None => el_flags e end) mn mx (el_display e) (el_doc e).

(** variant_processor.rs 749-827 [apply_element_ref] with vec_helper.rs 37-51
    [find_or_insert]: an element with the same identifier is updated; if it is not an
    element the assertions of lines 773 and 803 fail. *)
Definition apply_element (id : pident) (t : tident) (f : form_meta) (mn : nat) (mx : max_occurs) (nl : option bool)
  (es : list element_meta) : outcome content_error (list element_meta) :=
  match find_element id es with
  | None => Ok (es ++ [update_element mn mx nl (element_new id t ModeElement f)])
  | Some (l1, x, l2) =>
      match el_variant x with
      | EVType _ ModeElement => Ok (l1 ++ update_element mn mx nl x :: l2)
      | _ => Panic
      end
  end.

Definition show_n (n : N) : string := DecimalString.NilZero.string_of_uint (N.to_uint n).
Definition suffixed (s : string) (n : N) : string := (s ++ "_" ++ show_n n)%string.

(** element.rs 261-277 [push_any]. *)
Definition generated_any (e : element_meta) : bool :=
  match el_variant e with EVAny _ => name_is_generated (pi_name (el_ident e)) | _ => false end.
Fixpoint number_anys (i : N) (es : list element_meta) : N * list element_meta :=
  match es with
  | [] => (i, [])
  | e :: es' =>
      if generated_any e
      then let r := number_anys (i + 1) es' in (fst r, set_display (Some (suffixed "any" i)) e :: snd r)
      else let r := number_anys i es' in (fst r, e :: snd r)
  end.
Definition push_any (e : element_meta) (es : list element_meta) : list element_meta :=
  let r := number_anys 0 es in
  snd r ++ [set_display (Some (if (0 <? fst r)%N then suffixed "any" (fst r) else "any"%string)) e].

(** variant_processor.rs 960-988 [apply_any]. *)
Definition apply_any (id : pident) (a : any_meta) (mn : nat) (mx : max_occurs) (es : list element_meta) : list element_meta :=
  push_any (set_occurs mn mx (element_any id a)) es.

(** name.rs 90-110 [AsMut]: the text is replaced, the kind of the name is kept. *)
Definition with_text (n : name) (s : string) : name :=
  match n with Named _ => Named s | Generated _ => Generated s end.

(** variant_processor.rs 1709-1721: the first of the names [n_2], [n_4], [n_8], ... that
    is free.  [next] is an [i32]: the 31st doubling overflows, which is a panic if
    overflow checks are on. *)
Fixpoint free_name (more : nat) (next : N) (id : pident) (es : list element_meta) : option pident :=
  match more with
  | 0 => None
  | S more =>
      let next := (next + next)%N in
      let id' := PIdent (pi_ns id) (with_text (pi_name id) (suffixed (name_str (pi_name id)) next)) in
      match find_element id' es with
      | None => Some id'
      | Some _ => free_name more next id es
      end
  end.
Definition doublings : nat := 30.

(** variant_processor.rs 1694-1723 [insert_checked]; [f] makes the element. *)
Definition insert_checked (id : pident) (f : pident -> element_meta) (es : list element_meta)
  : outcome content_error (list element_meta) :=
  match find_element id es with
  | None => Ok (es ++ [f id])
  | Some (l1, x, l2) =>
      let x := match el_display x with
               | None => set_display (Some (suffixed (name_str (pi_name id)) 1)) x
               | Some _ => x
               end in
      match free_name doublings 1 id (l1 ++ x :: l2) with
      | Some id' => Ok ((l1 ++ x :: l2) ++ [f id'])
      | None => Panic
      end
  end.

Definition compose (c : compositor) (g : group_meta) : variant :=
  match c with CAll => VAll g | CChoice => VChoice g | CSequence => VSequence g end.

(** variant_processor.rs 1479-1488: the content and the group to add are of the same
    kind. *)
Definition same_compositor (c : compositor) (v : variant) : option group_meta :=
  match c, v with
  | CAll, VAll g | CChoice, VChoice g | CSequence, VSequence g => Some g
  | _, _ => None
  end.
Definition any_compositor (v : variant) : option (compositor * group_meta) :=
  match v with
  | VAll g => Some (CAll, g) | VChoice g => Some (CChoice, g) | VSequence g => Some (CSequence, g)
  | _ => None
  end.

(** type_processor.rs 236-265 [add_type]; a new entry of the map is put at the end, an old
    one is replaced. *)
Definition add_type (i : tident) (ty : mtype) (overwrite : bool) (st : istate) : outcome content_error istate :=
  match lookup i (s_types st) with
  | None => Ok (IState (s_types st ++ [(i, ty)]) (s_cache st) (s_next st))
  | Some _ =>
      if overwrite then Ok (IState (set_entry i ty (s_types st)) (s_cache st) (s_next st))
      else Err (TypeAlreadyDefined i)
  end.

Section Content.
  (** The named groups (with_group_node 1688), the current namespace, the names made by
      [make_field_name_and_type] (1651-1686) and [make_content_name] (398-404), the form
      and the schema of the current type, and [is_mixed] (278-290). *)
  Variable groups : tident -> option (compositor * list particle).
  Variable ns : nat.
  Variable field_name : nat -> option tident -> name.
  Variable type_name : nat -> tident.
  Variable finished : variant -> mtype.
  Variable mixed : bool.

  Definition result := option (outcome content_error (istate * list element_meta)).

  (** The loop of [apply_group] (variant_processor.rs 711-728). *)
  Fixpoint apply_particles (f : istate -> list element_meta -> particle -> result)
    (st : istate) (es : list element_meta) (ps : list particle) : result :=
    match ps with
    | [] => Some (Ok (st, es))
    | p :: ps' =>
        match f st es p with
        | Some (Ok (st', es')) => apply_particles f st' es' ps'
        | r => r
        end
    end.

  (** variant_processor.rs 1460-1464. *)
  Inductive output := OutType (g : group_meta) | OutCached (t : tident).

  (** The name of the content; 1640-1644: the type is remembered for the group. *)
  Definition count_name (st : istate) : istate := IState (s_types st) (s_cache st) (S (s_next st)).
  Definition cached (st : istate) (r : option tident) : option tident :=
    match r with Some g => lookup g (s_cache st) | None => None end.
  Definition remember (r : option tident) (was_cached : bool) (t : tident) (st : istate) : istate :=
    match r with
    | Some g => if was_cached then st else IState (s_types st) ((g, t) :: s_cache st) (s_next st)
    | None => st
    end.

  (** Adding the type of a group (1540-1548 and the same in the other branches). *)
  Definition add_output (c : compositor) (o : output) (t : tident) (st : istate) : outcome content_error (istate * tident) :=
    match o with
    | OutCached t' => Ok (st, t')
    | OutType g =>
        match add_type t (finished (compose c g)) false st with
        | Ok st' => Ok (st', t)
        | Err e => Err e
        | Panic => Panic
        end
    end.

  (** 1609-1621: a group inside of a group. *)
  Definition group_element (t : tident) (mn : nat) (mx : max_occurs) (id : pident) : element_meta :=
    set_occurs mn mx (element_new id t ModeGroup Unqualified).

  (** variant_processor.rs 1430-1649 [complex_content_builder] if the current type is a
      group; [fill] adds the content to a group.  696-703: the new group is mixed if the
      type is. *)
  Definition nested_group (fill : istate -> list element_meta -> list particle -> result) (st : istate)
    (es : list element_meta) (r : option tident) (c : compositor) (mn : nat) (mx : max_occurs) (ps : list particle) : result :=
    let field := field_name (s_next st) r in
    let t := type_name (s_next st) in
    let st := count_name st in
    let known := cached st r in
    let finish (st : istate) (o : output) : outcome content_error (istate * list element_meta) :=
      match add_output c o t st with
      | Ok (st', t') =>
          match insert_checked (PIdent ns field) (group_element t' mn mx) es with
          | Ok es' => Ok (remember r (match known with Some _ => true | None => false end) t st', es')
          | Err e => Err e
          | Panic => Panic
          end
      | Err e => Err e
      | Panic => Panic
      end in
    match known with
    | Some t' => Some (finish st (OutCached t'))
    | None =>
        match fill st [] ps with
        | Some (Ok (st', [])) => Some (Ok (st', es))
        | Some (Ok (st', els)) => Some (finish st' (OutType (GroupMeta mixed els)))
        | Some (Err e) => Some (Err e)
        | Some Panic => Some Panic
        | None => None
        end
    end.

  (** variant_processor.rs 695-733 [apply_group] and 904-946 [apply_group_ref] (a group
      has one [xs:all], [xs:choice] or [xs:sequence]; an unknown group is a panic of
      [get_node_entry]).  The fuel bounds the nesting. *)
  Fixpoint apply_particle (fuel : nat) (st : istate) (es : list element_meta) (p : particle) : result :=
    match fuel with
    | 0 => None
    | S fuel =>
        match p with
        | PElement id t f mn mx nl =>
            Some (match apply_element id t f mn mx nl es with
                  | Ok es' => Ok (st, es') | Err e => Err e | Panic => Panic
                  end)
        | PAny id a mn mx => Some (Ok (st, apply_any id a mn mx es))
        | PGroup c mn mx ps => nested_group (apply_particles (apply_particle fuel)) st es None c mn mx ps
        | PGroupRef g mn mx =>
            match groups g with
            | None => Some Panic
            | Some (c, ps) => nested_group (apply_particles (apply_particle fuel)) st es (Some g) c mn mx ps
            end
        end
    end.

  Definition set_content (t : tident) (mn : nat) (mx : max_occurs) (x : complex_meta) : complex_meta :=
    ComplexMeta (cx_base x) (Some t) mn mx (cx_dynamic x) (cx_mixed x) (cx_attrs x).

  (** The same if the current type is a complex type (1472-1492, 1533-1608). *)
  Definition complex_group (fuel : nat) (st : istate) (x : complex_meta) (r : option tident) (c : compositor)
    (mn : nat) (mx : max_occurs) (ps : list particle) : option (outcome content_error (istate * complex_meta)) :=
    let field := field_name (s_next st) r in
    let t := type_name (s_next st) in
    let st := count_name st in
    let known := cached st r in
    let was_cached := match known with Some _ => true | None => false end in
    let fill := apply_particles (apply_particle fuel) in
    match cx_content x with
    | None =>
        let finish (st : istate) (o : output) : outcome content_error (istate * complex_meta) :=
          match add_output c o t st with
          | Ok (st', t') => Ok (remember r was_cached t st', set_content t' mn mx x)
          | Err e => Err e
          | Panic => Panic
          end in
        match known with
        | Some t' => Some (finish st (OutCached t'))
        | None =>
            match fill st [] ps with
            | Some (Ok (st', [])) => Some (Ok (st', x))
            | Some (Ok (st', els)) => Some (finish st' (OutType (GroupMeta mixed els)))
            | Some (Err e) => Some (Err e)
            | Some Panic => Some Panic
            | None => None
            end
        end
    | Some ci =>
        match lookup ci (s_types st) with
        | None => Some Panic
        | Some ty =>
            match same_compositor c (m_variant ty) with
            | Some g =>
                match fill st (gr_elements g) ps with
                | Some (Ok (st', [])) => Some (Ok (st', x))
                | Some (Ok (st', els)) =>
                    Some (match add_type ci (finished (compose c (GroupMeta mixed els))) true st' with
                          | Ok st'' => Ok (remember r was_cached t st'',
                              set_content ci (Nat.min (cx_min x) mn) (max_max (cx_max x) mx) x)
                          | Err e => Err e
                          | Panic => Panic
                          end)
                | Some (Err e) => Some (Err e)
                | Some Panic => Some Panic
                | None => None
                end
            | None =>
                let finish (st : istate) (o : output) : outcome content_error (istate * complex_meta) :=
                  match add_output c o t st with
                  | Ok (st', t') =>
                      match lookup ci (s_types st') with
                      | None => Panic
                      | Some ty' =>
                          match any_compositor (m_variant ty') with
                          | None => Panic
                          | Some (c', g') =>
                              match insert_checked (PIdent ns field) (group_element t' mn mx) (gr_elements g') with
                              | Ok es' =>
                                  let ty'' := set_variant ty' (compose c' (GroupMeta (gr_mixed g') es')) in
                                  Ok (remember r was_cached t (IState (set_entry ci ty'' (s_types st')) (s_cache st') (s_next st')), x)
                              | Err e => Err e
                              | Panic => Panic
                              end
                          end
                      end
                  | Err e => Err e
                  | Panic => Panic
                  end in
                match known with
                | Some t' => Some (finish st (OutCached t'))
                | None =>
                    match fill st [] ps with
                    | Some (Ok (st', [])) => Some (Ok (st', x))
                    | Some (Ok (st', els)) => Some (finish st' (OutType (GroupMeta mixed els)))
                    | Some (Err e) => Some (Err e)
                    | Some Panic => Some Panic
                    | None => None
                    end
                end
            end
        end
    end.

  (** variant_processor.rs 359-392 [apply_complex_type]: the particle of a complex type.
      Elements and wildcards are not allowed there by the schema for schemas. *)
  Definition apply_content (fuel : nat) (st : istate) (x : complex_meta) (p : particle)
    : option (outcome content_error (istate * complex_meta)) :=
    match p with
    | PGroup c mn mx ps => complex_group fuel st x None c mn mx ps
    | PGroupRef g mn mx =>
        match groups g with
        | None => Some Panic
        | Some (c, ps) => complex_group fuel st x (Some g) c mn mx ps
        end
    | _ => Some Panic
    end.

  (** complex.rs 187-199. *)
  Definition complex_default : complex_meta := ComplexMeta BaseNone None 1 (Bounded 1) false mixed [].

  (** A complex type without a base. *)
  Definition interpret (fuel : nat) (st : istate) (p : particle) : option (outcome content_error (istate * complex_meta)) :=
    apply_content fuel st complex_default p.

  (** type_processor.rs 120-152 [get_complex_type_variant]; only complex types can be the
      base of complex content. *)
  Fixpoint complex_variant (fuel : nat) (ts : types) (i : tident) : option (outcome content_error complex_meta) :=
    match fuel with
    | 0 => None
    | S fuel =>
        match get_variant ts i with
        | None => Some Panic
        | Some (VComplex x) => Some (Ok x)
        | Some (VDynamic d) => match dy_type d with Some j => complex_variant fuel ts j | None => Some Panic end
        | Some _ => Some (Err (ExpectedComplexType i))
        end
    end.

  Inductive derivation := Extension | Restriction.

  (** variant_processor.rs 1230-1335 [copy_base_type] for complex content. *)
  Definition copied_content (d : derivation) (ty : mtype) : mtype :=
    match d, any_compositor (m_variant ty) with
    | Restriction, Some (c, g) =>
        set_variant ty (compose c (GroupMeta (gr_mixed g) (filter (fun e => Nat.ltb 0 (el_min e)) (gr_elements g))))
    | _, _ => ty
    end.
  Definition copy_base (fuel : nat) (d : derivation) (st : istate) (base : tident)
    : option (outcome content_error (istate * complex_meta)) :=
    match complex_variant fuel (s_types st) base with
    | None => None
    | Some (Err e) => Some (Err e)
    | Some Panic => Some Panic
    | Some (Ok x) =>
        let with_mixed (c : option tident) := ComplexMeta (cx_base x) c (cx_min x) (cx_max x) (cx_dynamic x) mixed (cx_attrs x) in
        match cx_content x with
        | None => Some (Ok (st, with_mixed None))
        | Some ci =>
            match lookup ci (s_types st) with
            | None => Some Panic
            | Some ty =>
                let t := type_name (s_next st) in
                Some (match add_type t (copied_content d ty) false (count_name st) with
                      | Ok st' => Ok (st', with_mixed (Some t))
                      | Err e => Err e
                      | Panic => Panic
                      end)
            end
        end
    end.

  (** variant_processor.rs 541-569 [apply_complex_content_extension],
      [apply_complex_content_restriction]. *)
  Definition derive (fuel : nat) (d : derivation) (st : istate) (base : tident) (p : particle)
    : option (outcome content_error (istate * complex_meta)) :=
    match copy_base fuel d st base with
    | Some (Ok (st', x)) =>
        match apply_content fuel st' x p with
        | Some (Ok (st'', x')) =>
            Some (Ok (st'', ComplexMeta (match d with Extension => BaseExt base | Restriction => BaseRes base end)
                              (cx_content x') (cx_min x') (cx_max x') (cx_dynamic x') (cx_mixed x') (cx_attrs x')))
        | r => r
        end
    | r => r
    end.
End Content.

(** fix_element_naming_conflicts.rs 32-80; [prefix] is the name of a namespace. *)
Section Conflicts.
  Variable prefix : nat -> option string.

  Definition ns_display (id : pident) : option string :=
    option_map (fun p => (p ++ "_" ++ name_str (pi_name id))%string) (prefix (pi_ns id)).

  (** The inner loop (41-57): what is done to the elements behind the [i]-th one, and
      whether one of them has another namespace. *)
  Fixpoint rename_rest (i : pident) (index : N) (es : list element_meta) : bool * list element_meta :=
    match es with
    | [] => (false, [])
    | e :: es' =>
        if string_dec (name_str (pi_name i)) (name_str (pi_name (el_ident e))) then
          if Nat.eqb (pi_ns i) (pi_ns (el_ident e)) then
            let r := rename_rest i (index + 1) es' in
            (fst r, set_display (Some (suffixed (name_str (pi_name (el_ident e))) index)) e :: snd r)
          else
            let r := rename_rest i index es' in
            (true, set_display (ns_display (el_ident e)) e :: snd r)
        else let r := rename_rest i index es' in (fst r, e :: snd r)
    end.

  (** The outer loop (37-65). *)
  Fixpoint fix_conflicts (fuel : nat) (es : list element_meta) : list element_meta :=
    match fuel, es with
    | S fuel, e :: es' =>
        let r := rename_rest (el_ident e) 2 es' in
        (if fst r then set_display (ns_display (el_ident e)) e else e) :: fix_conflicts fuel (snd r)
    | _, _ => es
    end.
  Definition fix_naming_conflicts (es : list element_meta) : list element_meta := fix_conflicts (length es) es.
End Conflicts.

(** generator/data/complex.rs 608-612: the text a member is named after. *)
Definition member_name (e : element_meta) : string :=
  match el_display e with Some d => d | None => name_str (pi_name (el_ident e)) end.
