(** Flattening complex types and merging the cardinalities of choices
    (xsd-parser/src/pipeline/optimizer/flatten_complex_type.rs, merge_choice_cardinality.rs).
    Simplification: [usize] arithmetic on occurrence bounds is arithmetic on [nat];
    overflows are the subject of C36. *)
From Verif Require Export UnionModel.

(** occurs.rs 34-72 without overflow. *)
Definition max_plus (a b : max_occurs) : max_occurs :=
  match a, b with Bounded x, Bounded y => Bounded (x + y) | _, _ => Unbounded end.
Definition max_times (a b : max_occurs) : max_occurs :=
  match a, b with Bounded x, Bounded y => Bounded (x * y) | _, _ => Unbounded end.

(** mod.rs 60-121 [Error]; only the errors of the passes modelled here. *)
Inductive flat_error := FlUnknownType | FlExpectedComplex | FlMissingContent | FlExpectedChoice | FlMismatch.

(** flatten_complex_type.rs 123-135 [Occurs], [Mode]. *)
Inductive gmode := GAll | GChoice | GSequence | GMixed (mn : nat) (mx : max_occurs).

(** flatten_complex_type.rs 115-121, 192-199 [Builder]. *)
Record builder := Builder {
  b_old : gmode; b_new : gmode; b_meta_old : group_meta; b_meta_new : option group_meta }.
Definition builder_new (m : gmode) (g : group_meta) : builder := Builder m m g None.

(** flatten_complex_type.rs 405-410 [reset_occurs] and the updates of the bounds. *)
Definition set_occurs (mn : nat) (mx : max_occurs) (e : element_meta) : element_meta :=
  ElementMeta (el_ident e) (el_variant e) (el_form e) (el_flags e) mn mx (el_display e) (el_doc e).
Definition reset_occurs : element_meta -> element_meta := set_occurs 1 (Bounded 1).

(** flatten_complex_type.rs 389-403 [Occurs::update]; the mode is never [GMixed]. *)
Definition occurs_update (m : gmode) (o : nat * max_occurs) (mn : nat) (mx : max_occurs) : outcome flat_error (nat * max_occurs) :=
  match m with
  | GAll | GSequence => Ok (fst o + mn, max_plus (snd o) mx)
  | GChoice => Ok (Nat.min (fst o) mn, max_max (snd o) mx)
  | GMixed _ _ => Panic
  end.

(** flatten_complex_type.rs 201-239 [into_mixed]. *)
Definition into_mixed (b : builder) : builder :=
  let g := match b_meta_new b with Some g => g | None => b_meta_old b end in
  let reset := GroupMeta (gr_mixed g) (map reset_occurs (gr_elements g)) in
  match b_new b with
  | GAll | GSequence =>
      let o := fold_left (fun o e => (fst o + el_min e, max_plus (snd o) (el_max e))) (gr_elements g) (0, Bounded 0) in
      Builder (b_old b) (GMixed (fst o) (snd o)) (b_meta_old b) (Some reset)
  | GChoice =>
      let o := fold_left (fun o e => (Nat.min (fst o) (el_min e), max_max (snd o) (el_max e))) (gr_elements g) (1, Bounded 1) in
      Builder (b_old b) (GMixed (fst o) (snd o)) (b_meta_old b) (Some reset)
  | GMixed _ _ => Builder (b_old b) (b_new b) (b_meta_old b) (Some g)
  end.

(** flatten_complex_type.rs 241-252 [into_meta]. *)
Definition into_meta (b : builder) : gmode * group_meta :=
  (b_new b, match b_meta_new b with Some g => g | None => b_meta_old b end).

(** flatten_complex_type.rs 254-279 [into_variant]. *)
Definition into_variant (b : builder) : option ((nat * max_occurs) * variant) :=
  match b_meta_new b with
  | None => None
  | Some g =>
      Some (match b_new b with
            | GAll => ((1, Bounded 1), VAll g)
            | GSequence => ((1, Bounded 1), VSequence g)
            | GChoice => ((1, Bounded 1), VChoice g)
            | GMixed mn mx => ((mn, mx), VChoice g)
            end)
  end.

(** flatten_complex_type.rs 295-307: the variants of two elements with the same name. *)
Definition same_variant (a b : element_variant) : bool :=
  match a, b with
  | EVText, EVText => true
  | EVAny _, EVAny _ => true
  | EVType t _, EVType u _ => is_left (tident_eq_dec t u)
  | _, _ => false
  end.

(** [iter_mut().find]: the first element with the identifier, split from the others. *)
Fixpoint find_element (id : pident) (l : list element_meta) : option (list element_meta * element_meta * list element_meta) :=
  match l with
  | [] => None
  | e :: l' =>
      if pident_eq_dec (el_ident e) id then Some ([], e, l')
      else option_map (fun r => (e :: fst (fst r), snd (fst r), snd r)) (find_element id l')
  end.

(** flatten_complex_type.rs 281-331 [add_element]. *)
Definition add_element (update : bool) (e : element_meta) (b : builder) : outcome flat_error builder :=
  match b_meta_new b with
  | None => Ok b
  | Some g =>
      match find_element (el_ident e) (gr_elements g) with
      | Some (l1, x, l2) =>
          if same_variant (el_variant x) (el_variant e) then
            if update then
              match b_new b with
              | GMixed mn mx =>
                  match occurs_update (b_old b) (mn, mx) (el_min e) (el_max e) with
                  | Ok o => Ok (Builder (b_old b) (GMixed (fst o) (snd o)) (b_meta_old b) (b_meta_new b))
                  | Err r => Err r
                  | Panic => Panic
                  end
              | _ =>
                  Ok (Builder (b_old b) (b_new b) (b_meta_old b) (Some (GroupMeta (gr_mixed g)
                    (l1 ++ set_occurs (el_min x + el_min e) (max_plus (el_max x) (el_max e)) x :: l2))))
              end
            else Ok b
          else Err FlMismatch
      | None =>
          if update then
            match b_new b with
            | GMixed mn mx =>
                match occurs_update (b_old b) (mn, mx) (el_min e) (el_max e) with
                | Ok o => Ok (Builder (b_old b) (GMixed (fst o) (snd o)) (b_meta_old b)
                                (Some (GroupMeta (gr_mixed g) (gr_elements g ++ [reset_occurs e]))))
                | Err r => Err r
                | Panic => Panic
                end
            | _ => Ok (Builder (b_old b) (b_new b) (b_meta_old b) (Some (GroupMeta (gr_mixed g) (gr_elements g ++ [e]))))
            end
          else Ok (Builder (b_old b) (b_new b) (b_meta_old b) (Some (GroupMeta (gr_mixed g) (gr_elements g ++ [e]))))
      end
  end.

(** flatten_complex_type.rs 344-352: the builders merge as they are. *)
Definition keep_modes (el : element_meta) (a b : gmode) : bool :=
  match a, b with
  | GAll, GAll => true
  | GChoice, GChoice | GSequence, GSequence => max_leb (el_max el) (Bounded 1)
  | _, _ => false
  end.

Fixpoint add_all (update : bool) (l : list element_meta) (b : builder) : outcome flat_error builder :=
  match l with
  | [] => Ok b
  | e :: l' =>
      match add_element update e b with
      | Ok b' => add_all update l' b'
      | r => r
      end
  end.

(** flatten_complex_type.rs 333-386 [merge]. *)
Definition merge (el : element_meta) (prev : list element_meta) (other self : builder) : outcome flat_error builder :=
  let g0 := match b_meta_new self with Some g => g | None => GroupMeta (gr_mixed (b_meta_old self)) prev end in
  let self0 := Builder (b_old self) (b_new self) (b_meta_old self) (Some g0) in
  let keep := keep_modes el (b_new self0) (b_new other) in
  let self1 := if keep then self0 else into_mixed self0 in
  let other1 := if keep then other else into_mixed other in
  let (mode, meta) := into_meta other1 in
  match b_meta_new self1 with
  | None => Panic
  | Some g1 =>
      let self2 m := Builder (b_old self1) m (b_meta_old self1) (Some (GroupMeta (gr_mixed g1 || gr_mixed meta) (gr_elements g1))) in
      match b_new self1, mode with
      | GAll, GAll | GChoice, GChoice | GSequence, GSequence =>
          add_all true
            (map (fun e => set_occurs (el_min e * el_min el) (max_times (el_max e) (el_max el)) e) (gr_elements meta))
            (self2 (b_new self1))
      | GMixed an ax, GMixed bn bx =>
          match occurs_update (b_old self1) (an, ax) (bn * el_min el) (max_times bx (el_max el)) with
          | Ok o => add_all false (map reset_occurs (gr_elements meta)) (self2 (GMixed (fst o) (snd o)))
          | Err r => Err r
          | Panic => Panic
          end
      | _, _ => Panic
      end
  end.

(** flatten_complex_type.rs 163-185: the loop over the elements of a group; [prev] are
    the elements before. *)
Fixpoint flat_loop (rec : tident -> option (outcome flat_error builder)) (prev rest : list element_meta) (b : builder)
  : option (outcome flat_error builder) :=
  match rest with
  | [] => Some (Ok b)
  | e :: rest' =>
      let next r := match r with Ok b' => flat_loop rec (prev ++ [e]) rest' b' | r => Some r end in
      match el_variant e with
      | EVType t ModeGroup =>
          match rec t with
          | None => None
          | Some (Ok inner) => next (merge e prev inner b)
          | Some r => Some r
          end
      | _ => next (add_element true e b)
      end
  end.

Definition group_of (v : variant) : option (gmode * group_meta) :=
  match v with
  | VAll g => Some (GAll, g)
  | VChoice g => Some (GChoice, g)
  | VSequence g => Some (GSequence, g)
  | _ => None
  end.

(** flatten_complex_type.rs 146-188 [Flatten::exec]; the only caller does not limit the
    depth and flattens named groups.  The outer [None] is out of fuel (endless
    recursion). *)
Fixpoint flat_exec (fuel : nat) (ts : types) (i : tident) : option (outcome flat_error builder) :=
  match fuel with
  | 0 => None
  | S fuel =>
      match lookup i ts with
      | None => Some (Err FlUnknownType)
      | Some ty =>
          match group_of (m_variant ty) with
          | None => Some (Err FlExpectedChoice)
          | Some (m, g) => flat_loop (flat_exec fuel ts) [] (gr_elements g) (builder_new m g)
          end
      end
  end.

(** [BTreeMap::insert] of a key that is present. *)
Definition set_entry (i : tident) (ty : mtype) (ts : types) : types :=
  map (fun p => if tident_eq_dec i (fst p) then (fst p, ty) else p) ts.

Definition with_bounds (mn : nat) (mx : max_occurs) (x : complex_meta) : complex_meta :=
  ComplexMeta (cx_base x) (cx_content x) mn mx (cx_dynamic x) (cx_mixed x) (cx_attrs x).

(** flatten_complex_type.rs 75-105 [flatten_complex_type_impl]. *)
Definition flatten_complex_type (fuel : nat) (o : optimizer) (i : tident) : option (outcome flat_error optimizer) :=
  match lookup i (o_types o) with
  | None => Some (Err FlUnknownType)
  | Some ty =>
      match m_variant ty with
      | VComplex x =>
          match cx_content x with
          | None => Some (Err FlMissingContent)
          | Some c =>
              match flat_exec fuel (o_types o) c with
              | None => None
              | Some (Ok b) =>
                  match into_variant b with
                  | None => Some (Ok o)
                  | Some (occ, v) =>
                      let ts := set_entry c (mtype_new v) (o_types o) in
                      Some (Ok (with_types o
                        match get_variant ts i with
                        | Some (VComplex x') => set_type i (VComplex (with_bounds (cx_min x' * fst occ) (max_times (cx_max x') (snd occ)) x')) ts
                        | _ => ts
                        end))
                  end
              | Some (Err r) => Some (Err r)
              | Some Panic => Some Panic
              end
          end
      | _ => Some (Err FlExpectedComplex)
      end
  end.

(** complex.rs 106-110 [content_meta]. *)
Definition content_variant (ts : types) (x : complex_meta) : option variant :=
  match cx_content x with
  | Some c => option_map m_variant (get_resolved_type ts c)
  | None => None
  end.
(** complex.rs 146-153 [has_complex_content], 125-130 [has_complex_choice_content]. *)
Definition has_group_content (ts : types) (x : complex_meta) : bool :=
  match content_variant ts x with Some (VAll _ | VChoice _ | VSequence _) => true | _ => false end.
Definition has_choice_content (ts : types) (x : complex_meta) : bool :=
  match content_variant ts x with Some (VChoice _) => true | _ => false end.
Definition complex_idents (p : complex_meta -> bool) (ts : types) : list tident :=
  map fst (filter (fun q => match m_variant (snd q) with VComplex x => p x | _ => false end) ts).

(** flatten_complex_type.rs 51-73 [flatten_complex_types]: errors are ignored. *)
Definition flatten_complex_types (fuel : nat) (o : optimizer) : option (outcome flat_error optimizer) :=
  fold_left (fun acc i =>
    match acc with
    | Some (Ok o) => match flatten_complex_type fuel o i with Some (Err _) => Some (Ok o) | r => r end
    | r => r
    end) (complex_idents (has_group_content (o_types o)) (o_types o)) (Some (Ok o)).

(** merge_choice_cardinality.rs 30-68 [merge_choice_cardinality]. *)
Definition merge_choice_cardinality (o : optimizer) (i : tident) : outcome flat_error optimizer :=
  match get_variant (o_types o) i with
  | None => Err FlUnknownType
  | Some (VComplex x) =>
      match cx_content x with
      | None => Err FlMissingContent
      | Some c =>
          match get_variant (o_types o) c with
          | Some (VChoice g) =>
              let mn := fold_left (fun n e => Nat.min n (el_min e)) (gr_elements g) 1 in
              let mx := fold_left (fun n e => max_max n (el_max e)) (gr_elements g) (Bounded 1) in
              let ts := set_type c (VChoice (GroupMeta (gr_mixed g) (map reset_occurs (gr_elements g)))) (o_types o) in
              match get_variant ts i with
              | Some (VComplex x') =>
                  Ok (with_types o (set_type i (VComplex (with_bounds (Nat.min mn (cx_min x')) (max_max mx (cx_max x')) x')) ts))
              | _ => Panic
              end
          | _ => Err FlExpectedChoice
          end
      end
  | Some _ => Err FlExpectedComplex
  end.

(** merge_choice_cardinality.rs 74-96 [merge_choice_cardinalities]; [unwrap] panics on an
    error. *)
Definition merge_choice_cardinalities (o : optimizer) : outcome flat_error optimizer :=
  fold_left (fun acc i =>
    match acc with
    | Ok o => match merge_choice_cardinality o i with Err _ => Panic | r => r end
    | r => r
    end) (complex_idents (has_choice_content (o_types o)) (o_types o)) (Ok o).
