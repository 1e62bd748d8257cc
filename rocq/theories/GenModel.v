(** The deserializers the renderer generates
    (xsd-parser/src/pipeline/renderer/steps/quick_xml/deserialize.rs) and the parts of
    the library they use (xsd-parser-types/src/quick_xml/deserialize.rs, cited as
    "lib deserialize.rs").

    The renderer prints one state machine per type.  Here a machine is a function of
    the description of the type ([ComplexDataStruct], [ComplexDataEnum]): the elements
    of the type carry the deserializer of their own type, so machines nest.

    Simplifications: all elements have values of one type [V] and deserializers of one
    type [D] (in Rust each element has its own types; a sum of them is one type);
    [Option<T>], [T], [Vec<T>] and [[T; N]] are lists; boxing is left out; a loop that
    does not end is a [Panic]. *)
From Verif Require Export TextModel WrapModel ListModel BoxModel.
Local Open Scope string_scope.
Local Open Scope list_scope.

Definition obind {A B : Type} (x : outcome kind A) (f : A -> outcome kind B) : outcome kind B :=
  match x with Ok a => f a | Err k => Err k | Panic => Panic end.
Notation "'let*' p ':=' x 'in' y" := (obind x (fun p => y))
  (at level 200, p pattern, x at level 100, y at level 200, right associativity).

(** ** ElementHandlerOutput *)

(** lib deserialize.rs 108-128 [ElementHandlerOutput]. *)
Inductive hout : Type := HContinue (e : event) (any : bool) | HBreak (e : devent) (any : bool).

(** lib deserialize.rs 338-344 [into_break]. *)
Definition into_break (d : devent) : devent :=
  match d with DContinue e => DBreak e | d => d end.

Definition is_tag (e : event) : bool :=
  match e with EStart _ _ | EEmpty _ _ => true | _ => false end.
Definition is_end (e : event) : bool := match e with EEnd _ => true | _ => false end.
Definition is_chars (e : event) : bool :=
  match e with EText _ | ECData _ => true | _ => false end.

(** lib deserialize.rs 145-149 [return_to_parent], 151-156 [return_to_root]. *)
Definition return_to_parent (e : event) (any : bool) : hout := HBreak (DContinue e) any.
Definition return_to_root (d : devent) (any : bool) : hout := HBreak (into_break d) any.

(** lib deserialize.rs 161-169 [from_event]. *)
Definition from_event (d : devent) (any : bool) : hout :=
  match d with
  | DContinue e => if is_tag e || is_end e then HContinue e any else HBreak (DContinue e) any
  | d => HBreak d any
  end.

(** lib deserialize.rs 171-180 [from_event_end]. *)
Definition from_event_end (d : devent) (any : bool) : hout :=
  match d with
  | DContinue e => if is_end e then HContinue e any else return_to_parent e any
  | d => HBreak d any
  end.

(** lib deserialize.rs 186-196 [is_continue_start_or_empty]. *)
Definition is_continue_tag (o : hout) : bool :=
  match o with HContinue e _ => is_tag e | HBreak _ _ => false end.

(** ** The elements of a type *)

(** steps/quick_xml/mod.rs 15-49: how the renderer treats an element: an element with a
    name, one whose type is dynamic, a group, [xs:any], or text. *)
Inductive mkind : Type := KindElement | KindDynamic | KindGroup | KindAny | KindText.
Definition mkind_eqb (a b : mkind) : bool :=
  match a, b with
  | KindElement, KindElement | KindDynamic, KindDynamic | KindGroup, KindGroup
  | KindAny, KindAny | KindText, KindText => true
  | _, _ => false
  end.

(** models/data/complex.rs 196-228 [ComplexDataElement]: name and namespace constant,
    occurrence bounds, whether the occurrence was lowered to [Optional]
    (generator/data/complex.rs 637-641), whether the target type begins with [xs:any]
    (deserialize.rs 3045-3098 [target_type_allows_any]), how to make a default value if
    the element is defaultable (4483-4496 [is_defaultable_element]; minimum zero is
    treated apart) and the deserializer of the target type. *)
Record member (V D : Type) := Member {
  m_name : bytes;
  m_ns : option bytes;
  m_kind : mkind;
  m_min : nat;
  m_max : max_occurs;
  m_opt : bool;
  m_any : bool;
  m_default : option (dhelper -> outcome kind (V * dhelper));
  m_deser : deser V D
}.
Arguments Member {V D} _ _ _ _ _ _ _ _ _.
Arguments m_name {V D} _.
Arguments m_ns {V D} _.
Arguments m_kind {V D} _.
Arguments m_min {V D} _.
Arguments m_max {V D} _.
Arguments m_opt {V D} _.
Arguments m_any {V D} _.
Arguments m_default {V D} _.
Arguments m_deser {V D} _.

(** generator/data/complex.rs 570, 637-641. *)
Definition m_occ {V D} (m : member V D) : occurs :=
  match from_occurs (m_min m) (m_max m) with
  | OSingle => if m_opt m then OOptional else OSingle
  | o => o
  end.

(** lib deserialize.rs 897-907 [check_start_tag_name].  quick-xml's [local_name] is what
    follows the first colon. *)
Definition local_name (name : bytes) : bytes :=
  match split_colon name with Some (_, l) => l | None => name end.
Definition check_tag (h : dhelper) (e : event) (ns : option bytes) (name : bytes) : bool :=
  match e with
  | EStart n _ | EEmpty n _ =>
      match ns with
      | Some ns =>
          match resolve_local_name (d_res h) n ns with
          | Some l => String.eqb l name
          | None => false
          end
      | None => String.eqb (local_name n) name
      end
  | _ => false
  end.

Section Generated.
  Context {V D : Type}.
  Implicit Types m : member V D.

  (** lib deserialize.rs 919-938 [init_start_tag_deserializer]. *)
  Definition init_start_tag m (any : bool) (h : dhelper) (e : event) : dresult V D :=
    if check_tag h e (m_ns m) (m_name m) then de_init (m_deser m) h e
    else Ok (DOut ANone (DContinue e) any, h).

  (** deserialize.rs 3934-3980 [store_..] of a struct, 3429-3474 of an enum. *)
  Definition store m (vals : list V) (v : V) : outcome kind (list V) :=
    match m_occ m with
    | ONone => Panic
    | OSingle | OOptional =>
        match vals with [] => Ok [v] | _ => Err (KDuplicateElement (m_name m)) end
    | ODynamic | OStatic _ => Ok (vals ++ [v])
    end.

  Definition max_option (x : max_occurs) : option nat :=
    match x with Unbounded => None | Bounded n => Some n end.

  (** deserialize.rs 3883-3932 [.._field_finish] of a struct, 3375-3415 of an enum. *)
  Definition finish_field m (vals : list V) (h : dhelper) : outcome kind (list V * dhelper) :=
    match m_occ m with
    | ONone => Panic
    | OSingle =>
        match m_default m with
        | Some df => let* (v, h') := finish_default df h (hd_error vals) in Ok ([v], h')
        | None => let* v := finish_element (m_name m) (hd_error vals) in Ok ([v], h)
        end
    | OOptional => Ok (vals, h)
    | ODynamic =>
        match m_min m with
        | 0 => Ok (vals, h)
        | min =>
            match m_default m with
            | Some df => finish_vec_default df min h vals
            | None => let* vs := finish_vec min (max_option (m_max m)) vals in Ok (vs, h)
            end
        end
    | OStatic n =>
        match m_default m with
        | Some df => finish_arr_default df n h vals
        | None => let* vs := finish_arr n vals in Ok (vs, h)
        end
    end.

  Fixpoint finish_fields (ms : list (member V D)) (fields : list (list V)) (h : dhelper)
    : outcome kind (list (list V) * dhelper) :=
    match ms, fields with
    | m :: ms', f :: fields' =>
        let* (f', h1) := finish_field m f h in
        let* (r, h2) := finish_fields ms' fields' h1 in
        Ok (f' :: r, h2)
    | _, _ => Ok ([], h)
    end.

  (** deserialize.rs 3805-3819: every field of a new deserializer is empty. *)
  Definition no_fields (ms : list (member V D)) : list (list V) := map (fun _ => []) ms.

  Fixpoint set_nth {X} (i : nat) (x : X) (l : list X) : list X :=
    match i, l with
    | 0, _ :: l' => x :: l'
    | S i', y :: l' => y :: set_nth i' x l'
    | _, [] => []
    end.

  Definition field_at (i : nat) (fields : list (list V)) : list V := nth i fields [].

  Definition get_or_insert {X} (o : option X) (x : X) : option X :=
    match o with Some y => Some y | None => Some x end.

  (** The attributes of the type: deserialize.rs 1815-1913 [from_bytes_start] yields the
      values of the attribute fields. *)
  Context {A : Type}.
  Variable from_start : dhelper -> bytes -> list attr -> outcome kind (A * dhelper).

  (** ** Structs with the elements of a sequence *)
  Section Sequence.
    (** [represents_element()] (models/data/complex.rs 357-360); for a group the
        attribute part is the constant [no_attrs]. *)
    Variable elem : bool.
    Variable no_attrs : A.
    (** Unknown elements are allowed (models/data/complex.rs 160-169) because of an
        [xs:any] without a type for it. *)
    Variable allow_any : bool.
    Variable mixed : bool.
    Variable ms : list (member V D).

    (** deserialize.rs 1638-1661: the state. *)
    Inductive sstate : Type := SInit | SAt (i : nat) (d : option D) | SDone | SUnknown.

    (** deserialize.rs 1552-1582: the deserializer. *)
    Record sdes : Type := SDes { sd_attrs : A; sd_fields : list (list V); sd_state : sstate }.

    Definition store_at (i : nat) (v : V) (fields : list (list V)) : outcome kind (list (list V)) :=
      match nth_error ms i with
      | None => Panic
      | Some m => let* f := store m (field_at i fields) v in Ok (set_nth i f fields)
      end.

    (** deserialize.rs 1941-1956, 3874-3881 [finish_state]. *)
    Definition seq_finish_state (fields : list (list V)) (st : sstate) (h : dhelper)
      : outcome kind (list (list V) * dhelper) :=
      match st with
      | SAt i (Some d) =>
          match nth_error ms i with
          | None => Panic
          | Some m =>
              let* (v, h') := de_finish (m_deser m) d h in
              let* fields' := store_at i v fields in
              Ok (fields', h')
          end
      | _ => Ok (fields, h)
      end.

    Definition seq_flush (fields : list (list V)) (fb : option sstate) (h : dhelper)
      : outcome kind (list (list V) * dhelper) :=
      match fb with Some st => seq_finish_state fields st h | None => Ok (fields, h) end.

    (** deserialize.rs 4088-4094, 4319-4325. *)
    Definition next_state (i : nat) : sstate :=
      if Nat.ltb (S i) (length ms) then SAt (S i) None else SDone.

    (** deserialize.rs 4155-4175: the state after a value, with [len] values now. *)
    Definition data_state (i : nat) m (len : nat) : sstate :=
      match m_occ m with
      | OSingle | OOptional => next_state i
      | _ =>
          match m_max m with
          | Bounded max => if Nat.ltb len max then SAt i None else next_state i
          | Unbounded => SAt i None
          end
      end.

    (** deserialize.rs 4177-4204: the state to try while a deserializer is unfinished. *)
    Definition des_state (i : nat) m (len : nat) : sstate :=
      match m_occ m with
      | OSingle | OOptional => next_state i
      | _ =>
          match m_max m with
          | Bounded max => if Nat.ltb len (max - 1) then SAt i None else next_state i
          | Unbounded => SAt i None
          end
      end.

    (** What a handler changes: the fields, [state__] and the fallback. *)
    Definition hstate : Type := (list (list V) * sstate * option sstate * dhelper)%type.

    (** deserialize.rs 4096-4153: the handler for [DeserializerArtifact::None]. *)
    Definition seq_none (i : nat) m (fields : list (list V)) (ev : devent) (any : bool)
        (fb : option sstate) (h : dhelper) : outcome kind (hout * hstate) :=
      let on := Ok (from_event ev any, (fields, next_state i, fb, h)) in
      match m_min m, m_occ m with
      | 0, _ | _, OOptional => on
      | min, occ =>
          match m_default m, occ with
          | None, OSingle =>
              let fb' := get_or_insert fb (SAt i None) in
              match fb' with
              | Some SInit => Ok (HBreak ev any, (fields, SUnknown, fb', h))
              | _ => Ok (return_to_root ev any, (fields, SUnknown, fb', h))
              end
          | None, _ =>
              match fb with
              | Some SInit => Ok (HBreak ev any, (fields, SUnknown, fb, h))
              | _ =>
                  let* (fields', h') := seq_flush fields fb h in
                  if Nat.ltb (length (field_at i fields')) min
                  then Ok (return_to_root ev any, (fields', SUnknown, Some (SAt i None), h'))
                  else Ok (from_event ev any, (fields', next_state i, None, h'))
              end
          | Some _, _ => on
          end
      end.

    (** deserialize.rs 4206-4247 [handle_..]. *)
    Definition seq_handle (i : nat) m (fields : list (list V)) (out : dout V D)
        (fb : option sstate) (h : dhelper) : outcome kind (hout * hstate) :=
      match o_art out with
      | ANone => seq_none i m fields (o_ev out) (o_any out) fb h
      | AData v =>
          let* (fields1, h1) := seq_flush fields fb h in
          let* fields2 := store_at i v fields1 in
          Ok (from_event (o_ev out) (o_any out),
              (fields2, data_state i m (length (field_at i fields2)), None, h1))
      | ADes d =>
          let* (fields1, h1) := seq_flush fields fb h in
          Ok (from_event (o_ev out) (o_any out),
              (fields1, des_state i m (length (field_at i fields1)), Some (SAt i (Some d)), h1))
      end.

    (** deserialize.rs 2476-2487: leaving the loop. *)
    Definition seq_end (a : A) (hs : hstate) (ev : devent) (any : bool)
      : dresult (A * list (list V)) sdes :=
      match hs with
      | (fields, st, fb, h) =>
          Ok (DOut (ADes (SDes a fields (match fb with Some f => f | None => st end))) ev any, h)
      end.

    Definition has_any : bool := existsb (fun m => mkind_eqb (m_kind m) KindAny) ms.
    Definition text_only : bool := forallb (fun m => mkind_eqb (m_kind m) KindText) ms.

    (** deserialize.rs 4329-4349, 4363-4385: asking the deserializer of an element to start. *)
    Definition seq_start m (h : dhelper) (e : event) : dresult V D :=
      match m_kind m with
      | KindElement => init_start_tag m (allow_any || m_any m) h e
      | _ => de_init (m_deser m) h e
      end.

    (** deserialize.rs 2349-2488 [next], the loop; 4271-4298 the continue and 4300-4397
        the create handlers.  [any] is [allow_any_element], [retry] is [is_any_retry],
        [afb] is [any_fallback]. *)
    Fixpoint seq_loop (fuel : nat) (a : A) (hs : hstate) (e : event) (any retry : bool)
        (afb : option sstate) : dresult (A * list (list V)) sdes :=
      match fuel with
      | 0 => Panic
      | S fuel' =>
          match hs with
          | (fields, st, fb, h) =>
              match st with
              | SUnknown => Panic
              | SAt i (Some d) =>
                  match nth_error ms i with
                  | None => Panic
                  | Some m =>
                      let* (out, h1) := de_next (m_deser m) d h e in
                      let* (ho, hs') := seq_handle i m fields out fb h1 in
                      match ho with
                      | HContinue e' x => seq_loop fuel' a hs' e' (any || x) retry afb
                      | HBreak de x => seq_end a hs' de x
                      end
                  end
              | st =>
                  if is_end e then
                    let* (fields1, h1) := seq_flush fields fb h in
                    let* (vals, h2) := finish_fields ms fields1 h1 in
                    Ok (DOut (AData (a, vals)) (if elem then DNone else DContinue e) false, h2)
                  else
                    match st with
                    | SInit =>
                        seq_loop fuel' a (fields, SAt 0 None, get_or_insert fb SInit, h) e
                          (allow_any || any) retry afb
                    | SAt i _ =>
                        match nth_error ms i with
                        | None => Panic
                        | Some m =>
                            if mkind_eqb (m_kind m) KindText || is_tag e then
                              if mkind_eqb (m_kind m) KindAny && negb retry then
                                seq_loop fuel' a (fields, next_state i, fb, h) e any retry
                                  (get_or_insert afb (SAt i None))
                              else
                                let* (out, h1) := seq_start m h e in
                                let* (ho, hs') := seq_handle i m fields out fb h1 in
                                match ho with
                                | HContinue e' x => seq_loop fuel' a hs' e' (any || x) retry afb
                                | HBreak de x => seq_end a hs' de x
                                end
                            else if mixed && is_chars e then
                              seq_end a (fields, st, fb, h) DNone false
                            else seq_end a (fields, st, fb, h) (DBreak e) false
                        end
                    | _ =>
                        match (if has_any then afb else None) with
                        | Some st' => seq_loop fuel' a (fields, st', fb, h) e any true None
                        | None => seq_end a (fields, SDone, fb, h) (DContinue e) (allow_any || any)
                        end
                    end
              end
          end
      end.

    (** Two passes over the elements are enough. *)
    Definition seq_fuel : nat := 2 * length ms + 6.

    Definition seq_next (d : sdes) (h : dhelper) (e : event) : dresult (A * list (list V)) sdes :=
      seq_loop seq_fuel (sd_attrs d) (sd_fields d, sd_state d, None, h) e false false None.

    (** deserialize.rs 2490-2519 [finish]. *)
    Definition seq_finish (d : sdes) (h : dhelper) : outcome kind ((A * list (list V)) * dhelper) :=
      let* (fields, h1) := seq_finish_state (sd_fields d) (sd_state d) h in
      let* (vals, h2) := finish_fields ms fields h1 in
      Ok ((sd_attrs d, vals), h2).

    Definition seq_new (a : A) : sdes := SDes a (no_fields ms) SInit.

    (** deserialize.rs 1041-1052 with lib deserialize.rs 1038-1076
        [init_deserializer_from_start_event]. *)
    Definition seq_init_element (h : dhelper) (e : event) : dresult (A * list (list V)) sdes :=
      match e with
      | EStart n attrs =>
          let* (a, h') := from_start h n attrs in
          Ok (DOut (ADes (seq_new a)) DNone false, h')
      | EEmpty n attrs =>
          let* (a, h') := from_start h n attrs in
          let* (v, h'') := seq_finish (seq_new a) h' in
          Ok (DOut (AData v) DNone false, h'')
      | e => Ok (DOut ANone (DContinue e) false, h)
      end.

    (** deserialize.rs 2054-2097 [init] of a group. *)
    Definition seq_init_group (h : dhelper) (e : event) : dresult (A * list (list V)) sdes :=
      let* (out, h') := seq_next (seq_new no_attrs) h e in
      Ok (DOut (match o_art out with
                | ADes d => match sd_state d with SInit => ANone | _ => ADes d end
                | art => art
                end) (o_ev out) (o_any out), h').

    Definition seq_deser : deser (A * list (list V)) sdes :=
      Deser (if elem then seq_init_element else seq_init_group) seq_next seq_finish.
  End Sequence.

  (** ** Enums: the elements of a choice *)
  Section Choice.
    Variable elem : bool.
    Variable allow_any : bool.
    Variable mixed : bool.
    (** The type is defaultable (deserialize.rs 4415-4424, 4554-4562). *)
    Variable defaultable : bool.
    Variable ms : list (member V D).

    (** The value: the variant and its values. *)
    Definition variant : Type := (nat * list V)%type.

    (** deserialize.rs 1086-1099, 3190-3222: the state.  [EAt i vals fb cur]: values so
        far, a finished deserializer not yet stored, the running one. *)
    Inductive estate : Type :=
    | EInit
    | EAt (i : nat) (vals : list V) (fb cur : option D)
    | EFin (v : variant)
    | EUnknown.

    (** deserialize.rs 3320-3363 [.._enum_variant_default]. *)
    Definition variant_default m (h : dhelper) : outcome kind (variant * dhelper) :=
      match m_occ m with
      | ONone => Panic
      | OSingle =>
          match m_default m with
          | Some df => let* (v, h') := df h in Ok ((0, [v]), h')
          | None => Panic
          end
      | OOptional => Ok ((0, []), h)
      | ODynamic =>
          match m_min m, m_default m with
          | 0, _ => Ok ((0, []), h)
          | min, Some df => let* (vs, h') := finish_vec_default df min h [] in Ok ((0, vs), h')
          | _, None => Panic
          end
      | OStatic n =>
          match m_default m with
          | Some df => let* (vs, h') := finish_arr_default df n h [] in Ok ((0, vs), h')
          | None => Panic
          end
      end.

    (** deserialize.rs 1324-1369, 3365-3427 [finish_state]. *)
    Definition enum_finish_state (st : estate) (h : dhelper) : outcome kind (variant * dhelper) :=
      match st with
      | EInit =>
          if defaultable then
            match ms with m :: _ => variant_default m h | [] => Panic end
          else Err KMissingContent
      | EAt i vals None cur =>
          match nth_error ms i with
          | None => Panic
          | Some m =>
              let* (vals1, h1) :=
                match cur with
                | Some d =>
                    let* (v, h') := de_finish (m_deser m) d h in
                    let* vs := store m vals v in Ok (vs, h')
                | None => Ok (vals, h)
                end in
              let* (vals2, h2) := finish_field m vals1 h1 in
              Ok ((i, vals2), h2)
          end
      | EFin v => Ok (v, h)
      | _ => Panic
      end.

    Definition break_or_end (ev : devent) (any : bool) : hout :=
      if elem then from_event_end ev any else HBreak ev any.

    (** deserialize.rs 3512-3519. *)
    Definition continue_or_return m (ev : devent) (any : bool) : hout :=
      match m_kind m with
      | KindText | KindGroup | KindDynamic => from_event ev any
      | _ => return_to_root ev any
      end.

    (** deserialize.rs 3477-3693 [handle_..].  Where the code leaves [state__] alone it
        still holds the marker [Unknown__]. *)
    Definition enum_handle (i : nat) m (vals : list V) (fb : option D) (out : dout V D) (h : dhelper)
      : outcome kind (hout * estate * dhelper) :=
      let ev := o_ev out in
      let any := o_any out in
      match o_art out with
      | ANone =>
          match m_occ m with
          | ONone => Panic
          | OSingle | OOptional => Ok (continue_or_return m ev any, EUnknown, h)
          | _ =>
              match fb, vals with
              | None, [] => Ok (continue_or_return m ev any, EInit, h)
              | _, _ =>
                  if negb (Nat.eqb (m_min m) 0 || is_some (m_default m)) &&
                     Nat.ltb (length vals + (if is_some fb then 1 else 0)) (m_min m)
                  then Ok (return_to_root ev any, EAt i vals None fb, h)
                  else Ok (break_or_end ev any, EAt i vals None fb, h)
              end
          end
      | art =>
          let* (vals1, h1) :=
            match fb with
            | Some d =>
                let* (v, h') := de_finish (m_deser m) d h in
                let* vs := store m vals v in Ok (vs, h')
            | None => Ok (vals, h)
            end in
          match art with
          | ANone => Panic
          | AData v =>
              let* vals2 := store m vals1 v in
              let stay := Ok (from_event ev any, EAt i vals2 None None, h1) in
              let leave :=
                let* (t, h2) := enum_finish_state (EAt i vals2 None None) h1 in
                Ok (HBreak ev any, EFin t, h2) in
              if elem then stay
              else match m_occ m with
                   | OSingle | OOptional => leave
                   | _ =>
                       match m_max m with
                       | Bounded max => if Nat.ltb (length vals2) max then stay else leave
                       | Unbounded => stay
                       end
                   end
          | ADes d =>
              match m_occ m with
              | OSingle | OOptional => Ok (break_or_end ev any, EAt i vals1 None (Some d), h1)
              | _ =>
                  let more :=
                    match m_max m with
                    | Bounded max => Nat.ltb (length vals1) (max - 1)
                    | Unbounded => true
                    end in
                  let ret := if more then from_event ev any else break_or_end ev any in
                  Ok (ret,
                      if more && is_continue_tag ret then EAt i vals1 (Some d) None
                      else EAt i vals1 None (Some d), h1)
              end
          end
      end.

    Definition find_state : Type := (hout * estate * dhelper)%type.

    (** deserialize.rs 3149-3188 [deserializer_init_group] for the elements selected by
        [sel], in order: [inl] an answer, [inr] the event nobody took. *)
    Fixpoint try_groups (sel : mkind -> bool) (i : nat) (l : list (member V D)) (e : event)
        (any : bool) (h : dhelper) : outcome kind (find_state + event * bool * dhelper) :=
      match l with
      | [] => Ok (inr (e, any, h))
      | m :: l' =>
          if sel (m_kind m) then
            let* (out, h1) := de_init (m_deser m) h e in
            let* (ho, st, h2) := enum_handle i m [] None out h1 in
            match ho with
            | HContinue e' x => try_groups sel (S i) l' e' (any || x) h2
            | ho => Ok (inl (ho, st, h2))
            end
          else try_groups sel (S i) l' e any h
      end.

    (** deserialize.rs 3100-3147: the first element with the name of the tag.
        Simplification: elements identified by [xsi:type] (1204-1240) are left out. *)
    Fixpoint find_tag (i : nat) (l : list (member V D)) (e : event) (h : dhelper)
      : option (nat * member V D) :=
      match l with
      | [] => None
      | m :: l' =>
          if mkind_eqb (m_kind m) KindElement && check_tag h e (m_ns m) (m_name m)
          then Some (i, m) else find_tag (S i) l' e h
      end.

    Definition sel_group (k : mkind) : bool :=
      match k with KindGroup | KindDynamic => true | _ => false end.
    Definition sel_any (k : mkind) : bool := mkind_eqb k KindAny.
    (** Only the first text element is asked (1163-1166). *)
    Fixpoint first_text (i : nat) (l : list (member V D)) : option (nat * member V D) :=
      match l with
      | [] => None
      | m :: l' => if mkind_eqb (m_kind m) KindText then Some (i, m) else first_text (S i) l'
      end.

    (** deserialize.rs 1149-1256 [find_suitable]. *)
    Definition find_suitable (e : event) (h : dhelper) : outcome kind find_state :=
      let text (e : event) (any : bool) (h : dhelper) : outcome kind find_state :=
        let refuse e any h := Ok (return_to_parent e (allow_any || any), EInit, h) in
        match first_text 0 ms with
        | None => refuse e any h
        | Some (i, m) =>
            let* (out, h1) := de_init (m_deser m) h e in
            let* (ho, st, h2) := enum_handle i m [] None out h1 in
            match ho with
            | HContinue e' _ => refuse e' any h2
            | ho => Ok (ho, st, h2)
            end
        end in
      if is_tag e then
        match find_tag 0 ms e h with
        | Some (i, m) =>
            let* (out, h1) := de_init (m_deser m) h e in
            enum_handle i m [] None out h1
        | None =>
            let* r := try_groups sel_group 0 ms e false h in
            match r with
            | inl fs => Ok fs
            | inr (e1, any, h1) =>
                let* r := try_groups sel_any 0 ms e1 false h1 in
                match r with
                | inl fs => Ok fs
                | inr (e2, _, h2) => text e2 any h2
                end
            end
        end
      else text e false h.

    (** deserialize.rs 1517-1530: leaving the loop. *)
    Definition enum_end (st : estate) (h : dhelper) (ev : devent) (any : bool)
      : dresult variant estate :=
      match st with
      | EFin v => Ok (DOut (AData v) ev any, h)
      | st => Ok (DOut (ADes st) ev any, h)
      end.

    (** deserialize.rs 1444-1530 [next], the loop; 3695-3775 its handlers. *)
    Fixpoint enum_loop (fuel : nat) (st : estate) (h : dhelper) (e : event) : dresult variant estate :=
      match fuel with
      | 0 => Panic
      | S fuel' =>
          let go (r : outcome kind find_state) : dresult variant estate :=
            let* (ho, st', h') := r in
            match ho with
            | HContinue e' _ => enum_loop fuel' st' h' e'
            | HBreak de x => enum_end st' h' de x
            end in
          match st with
          | EUnknown => Panic
          | EAt i vals fb (Some d) =>
              match nth_error ms i with
              | None => Panic
              | Some m =>
                  let* (out, h1) := de_next (m_deser m) d h e in
                  go (enum_handle i m vals fb out h1)
              end
          | st =>
              if is_end e then
                let* (v, h1) := enum_finish_state st h in
                Ok (DOut (AData v) (if elem then DNone else DContinue e) false, h1)
              else
                match st with
                | EInit => go (find_suitable e h)
                | EAt i vals fb _ =>
                    if is_tag e then
                      match nth_error ms i with
                      | None => Panic
                      | Some m =>
                          let* (out, h1) :=
                            match m_kind m with
                            | KindElement => init_start_tag m (m_any m) h e
                            | _ => de_init (m_deser m) h e
                            end in
                          go (enum_handle i m vals fb out h1)
                      end
                    else if mixed && is_chars e then enum_end st h DNone false
                    else enum_end st h (DContinue e) false
                | _ => enum_end st h (DContinue e) false
                end
          end
      end.

    Definition enum_fuel : nat := 4.

    Definition enum_next (st : estate) (h : dhelper) (e : event) : dresult variant estate :=
      enum_loop enum_fuel st h e.

    (** deserialize.rs 1532-1540 [finish]. *)
    Definition enum_finish : estate -> dhelper -> outcome kind (variant * dhelper) := enum_finish_state.

    (** deserialize.rs 1041-1052, 1271-1322 with lib deserialize.rs 1038-1076; the
        attribute values are not kept. *)
    Definition enum_init_element (h : dhelper) (e : event) : dresult variant estate :=
      match e with
      | EStart n attrs =>
          let* (_, h') := from_start h n attrs in
          Ok (DOut (ADes EInit) DNone false, h')
      | EEmpty n attrs =>
          let* (_, h') := from_start h n attrs in
          let* (v, h'') := enum_finish EInit h' in
          Ok (DOut (AData v) DNone false, h'')
      | e => Ok (DOut ANone (DContinue e) false, h)
      end.

    (** deserialize.rs 1406-1442 [init] of a group. *)
    Definition enum_init_group (h : dhelper) (e : event) : dresult variant estate :=
      let* (out, h') := enum_next EInit h e in
      Ok (DOut (match o_art out with ADes EInit => ANone | art => art end) (o_ev out) (o_any out), h').

    Definition enum_deser : deser variant estate :=
      Deser (if elem then enum_init_element else enum_init_group) enum_next enum_finish.
  End Choice.

  (** ** Structs whose content is another generated type *)
  Section Content.
    Variable elem : bool.
    Variable no_attrs : A.
    (** The content as an element without a name: bounds, default and deserializer
        (models/data/complex.rs 171-194 [ComplexDataContent]). *)
    Variable m : member V D.

    (** deserialize.rs 1590-1616: the state. *)
    Inductive cstate : Type := KInit | KNext | KAt (d : D) | KDone | KUnknown.
    Record cdes : Type := CDes { cd_attrs : A; cd_vals : list V; cd_state : cstate }.

    (** deserialize.rs 2606-2640 [store_content]. *)
    Definition content_store (vals : list V) (v : V) : outcome kind (list V) :=
      match m_occ m with
      | ONone => Panic
      | OSingle | OOptional => match vals with [] => Ok [v] | _ => Err KDuplicateContent end
      | _ => Ok (vals ++ [v])
      end.

    (** deserialize.rs 2568-2604. *)
    Definition content_finish_vals (vals : list V) (h : dhelper) : outcome kind (list V * dhelper) :=
      match m_occ m with
      | ONone => Panic
      | OSingle =>
          match m_default m with
          | Some df => let* (v, h') := finish_default df h (hd_error vals) in Ok ([v], h')
          | None => match vals with v :: _ => Ok ([v], h) | [] => Err KMissingContent end
          end
      | OOptional => Ok (vals, h)
      | ODynamic =>
          match m_default m with
          | Some df => finish_vec_default df (m_min m) h vals
          | None => let* vs := finish_vec (m_min m) (max_option (m_max m)) vals in Ok (vs, h)
          end
      | OStatic n =>
          match m_default m with
          | Some df => finish_arr_default df n h vals
          | None => let* vs := finish_arr n vals in Ok (vs, h)
          end
      end.

    (** deserialize.rs 1957-1965 [finish_state]. *)
    Definition content_finish_state (vals : list V) (st : cstate) (h : dhelper)
      : outcome kind (list V * dhelper) :=
      match st with
      | KAt d =>
          let* (v, h') := de_finish (m_deser m) d h in
          let* vals' := content_store vals v in Ok (vals', h')
      | _ => Ok (vals, h)
      end.

    Definition cdes_finish (d : cdes) (h : dhelper) : outcome kind ((A * list V) * dhelper) :=
      let* (vals, h1) := content_finish_state (cd_vals d) (cd_state d) h in
      let* (vs, h2) := content_finish_vals vals h1 in
      Ok ((cd_attrs d, vs), h2).

    Definition chstate : Type := (list V * cstate * option cstate * dhelper)%type.

    (** deserialize.rs 2730-2913 [handle_content]. *)
    Definition content_handle (vals : list V) (out : dout V D) (fb : option cstate) (h : dhelper)
      : outcome kind (hout * chstate) :=
      let ev := o_ev out in
      let any := o_any out in
      let back := match fb with Some f => f | None => KNext end in
      match o_art out with
      | ANone =>
          if elem then Ok (from_event_end ev any, (vals, back, None, h))
          else if Nat.eqb (m_min m) 0 || is_some (m_default m) then
            Ok (HBreak ev any, (vals, back, None, h))
          else
            match m_occ m with
            | OSingle | OOptional => Ok (HBreak ev any, (vals, KInit, fb, h))
            | _ =>
                if Nat.ltb (length vals + match back with KAt _ => 1 | _ => 0 end) (m_min m)
                then Ok (return_to_root ev any, (vals, back, None, h))
                else Ok (HBreak ev any, (vals, back, None, h))
            end
      | art =>
          let* (vals1, h1) :=
            match fb with Some st => content_finish_state vals st h | None => Ok (vals, h) end in
          match art with
          | ANone => Panic
          | AData v =>
              let* vals2 := content_store vals1 v in
              let next := Ok (from_event ev any, (vals2, KNext, None, h1)) in
              let done := Ok (HBreak ev any, (vals2, KDone, None, h1)) in
              if elem then next
              else match m_occ m with
                   | OSingle | OOptional => done
                   | _ =>
                       match m_max m with
                       | Bounded max => if Nat.ltb (length vals2) max then next else done
                       | Unbounded => next
                       end
                   end
          | ADes d =>
              let stop := Ok (if elem then from_event_end ev any else HBreak ev any,
                              (vals1, KAt d, None, h1)) in
              let more := Ok (from_event ev any, (vals1, KNext, Some (KAt d), h1)) in
              match m_occ m with
              | OSingle | OOptional => stop
              | _ =>
                  match m_max m with
                  | Bounded max => if Nat.ltb (length vals1) (max - 1) then more else stop
                  | Unbounded => more
                  end
              end
          end
      end.

    (** deserialize.rs 2527-2529 [need_done_state]. *)
    Definition need_done : bool :=
      negb elem && match m_max m with Bounded _ => true | Unbounded => false end.

    (** deserialize.rs 2275-2286: leaving the loop. *)
    Definition content_end (a : A) (hs : chstate) (ev : devent) (any : bool)
      : dresult (A * list V) cdes :=
      match hs with
      | (vals, st, fb, h) =>
          let st := match fb with Some f => f | None => st end in
          match need_done, st with
          | true, KDone =>
              let* (v, h') := cdes_finish (CDes a vals KDone) h in
              Ok (DOut (AData v) ev any, h')
          | _, st => Ok (DOut (ADes (CDes a vals st)) ev any, h)
          end
      end.

    (** deserialize.rs 2191-2287 [next], the loop. *)
    Fixpoint content_loop (fuel : nat) (a : A) (hs : chstate) (e : event) : dresult (A * list V) cdes :=
      match fuel with
      | 0 => Panic
      | S fuel' =>
          match hs with
          | (vals, st, fb, h) =>
              let go (r : outcome kind (hout * chstate)) : dresult (A * list V) cdes :=
                let* (ho, hs') := r in
                match ho with
                | HContinue e' _ => content_loop fuel' a hs' e'
                | HBreak de x => content_end a hs' de x
                end in
              match st with
              | KUnknown => Panic
              | KAt d =>
                  let* (out, h1) := de_next (m_deser m) d h e in
                  go (content_handle vals out fb h1)
              | st =>
                  if is_end e then
                    let* (vs, h1) := content_finish_vals vals h in
                    Ok (DOut (AData (a, vs)) (if elem then DNone else DContinue e) false, h1)
                  else
                    match st with
                    | KDone => content_end a (vals, KDone, fb, h) (DContinue e) false
                    | st =>
                        let fb := get_or_insert fb st in
                        let* (out, h1) := de_init (m_deser m) h e in
                        go (content_handle vals out fb h1)
                    end
              end
          end
      end.

    Definition content_fuel : nat := 4.
    Definition cdes_next (d : cdes) (h : dhelper) (e : event) : dresult (A * list V) cdes :=
      content_loop content_fuel (cd_attrs d) (cd_vals d, cd_state d, None, h) e.

    Definition cdes_new (a : A) : cdes := CDes a [] KInit.

    Definition cdes_init_element (h : dhelper) (e : event) : dresult (A * list V) cdes :=
      match e with
      | EStart n attrs =>
          let* (a, h') := from_start h n attrs in
          Ok (DOut (ADes (cdes_new a)) DNone false, h')
      | EEmpty n attrs =>
          let* (a, h') := from_start h n attrs in
          let* (v, h'') := cdes_finish (cdes_new a) h' in
          Ok (DOut (AData v) DNone false, h'')
      | e => Ok (DOut ANone (DContinue e) false, h)
      end.

    Definition cdes_init_group (h : dhelper) (e : event) : dresult (A * list V) cdes :=
      let* (out, h') := cdes_next (cdes_new no_attrs) h e in
      Ok (DOut (match o_art out with
                | ADes d => match cd_state d with KInit => ANone | _ => ADes d end
                | art => art
                end) (o_ev out) (o_any out), h').

    Definition cdes_deser : deser (A * list V) cdes :=
      Deser (if elem then cdes_init_element else cdes_init_group) cdes_next cdes_finish.
  End Content.
  (** ** Structs with the elements of an [xs:all] *)
  Section All.
    Variable elem : bool.
    Variable no_attrs : A.
    Variable allow_any : bool.
    Variable ms : list (member V D).

    (** deserialize.rs 1617-1637: the state. *)
    Inductive lstate : Type := LInit | LNext | LAt (i : nat) (d : D) | LUnknown.
    Record ldes : Type := LDes { ld_attrs : A; ld_fields : list (list V); ld_state : lstate }.

    (** deserialize.rs 1925-1940, 3865-3872 [finish_state]. *)
    Definition all_finish_state (fields : list (list V)) (st : lstate) (h : dhelper)
      : outcome kind (list (list V) * dhelper) :=
      match st with
      | LAt i d =>
          match nth_error ms i with
          | None => Panic
          | Some m =>
              let* (v, h') := de_finish (m_deser m) d h in
              let* fields' := store_at ms i v fields in
              Ok (fields', h')
          end
      | _ => Ok (fields, h)
      end.

    Definition lhstate : Type := (list (list V) * lstate * option lstate * dhelper)%type.

    (** deserialize.rs 3982-4059 [handle_..]. *)
    Definition all_handle (i : nat) m (fields : list (list V)) (out : dout V D)
        (fb : option lstate) (h : dhelper) : outcome kind (hout * lhstate) :=
      let ev := o_ev out in
      let any := o_any out in
      let flush :=
        match fb with Some st => all_finish_state fields st h | None => Ok (fields, h) end in
      match o_art out with
      | ANone =>
          Ok (match m_kind m with
              | KindText | KindGroup => from_event ev any
              | _ => return_to_root ev any
              end, (fields, LNext, fb, h))
      | AData v =>
          let* (fields1, h1) := flush in
          let* fields2 := store_at ms i v fields1 in
          Ok (from_event ev any, (fields2, LNext, None, h1))
      | ADes d =>
          let* (fields1, h1) := flush in
          Ok (from_event ev any, (fields1, LNext, Some (LAt i d), h1))
      end.

    (** deserialize.rs 3149-3188 with 3830-3843: the groups, in order. *)
    Fixpoint all_groups (i : nat) (l : list (member V D)) (e : event) (any : bool)
        (fields : list (list V)) (fb : option lstate) (h : dhelper)
      : outcome kind ((hout * lhstate) + event * bool * (list (list V) * option lstate * dhelper)) :=
      match l with
      | [] => Ok (inr (e, any, (fields, fb, h)))
      | m :: l' =>
          if sel_group (m_kind m) then
            let* (out, h1) := de_init (m_deser m) h e in
            let* (ho, hs) := all_handle i m fields out fb h1 in
            match ho with
            | HContinue e' x =>
                match hs with (fields', _, fb', h') => all_groups (S i) l' e' (any || x) fields' fb' h' end
            | ho => Ok (inl (ho, hs))
            end
          else all_groups (S i) l' e any fields fb h
      end.

    (** deserialize.rs 1745-1812 [find_suitable]. *)
    Definition all_find (e : event) (fields : list (list V)) (fb : option lstate) (h : dhelper)
      : outcome kind (hout * lhstate) :=
      let text (e : event) (any : bool) fields fb h : outcome kind (hout * lhstate) :=
        match first_text 0 ms with
        | Some (i, m) =>
            let* (out, h1) := de_init (m_deser m) h e in
            all_handle i m fields out fb h1
        | None =>
            Ok (return_to_parent e (allow_any || any),
                (fields, match fb with Some st => st | None => LInit end, None, h))
        end in
      if is_tag e then
        match find_tag 0 ms e h with
        | Some (i, m) =>
            let* (out, h1) := de_init (m_deser m) h e in
            all_handle i m fields out fb h1
        | None =>
            let* r := all_groups 0 ms e false fields fb h in
            match r with
            | inl x => Ok x
            | inr (e1, any, (fields1, fb1, h1)) => text e1 any fields1 fb1 h1
            end
        end
      else text e false fields fb h.

    (** deserialize.rs 2336-2345: leaving the loop. *)
    Definition all_end (a : A) (hs : lhstate) (ev : devent) (any : bool)
      : dresult (A * list (list V)) ldes :=
      match hs with
      | (fields, st, fb, h) =>
          Ok (DOut (ADes (LDes a fields (match fb with Some f => f | None => st end))) ev any, h)
      end.

    (** deserialize.rs 2289-2346 [next], the loop. *)
    Fixpoint all_loop (fuel : nat) (a : A) (hs : lhstate) (e : event)
      : dresult (A * list (list V)) ldes :=
      match fuel with
      | 0 => Panic
      | S fuel' =>
          match hs with
          | (fields, st, fb, h) =>
              let go (r : outcome kind (hout * lhstate)) : dresult (A * list (list V)) ldes :=
                let* (ho, hs') := r in
                match ho with
                | HContinue e' _ => all_loop fuel' a hs' e'
                | HBreak de x => all_end a hs' de x
                end in
              match st with
              | LUnknown => Panic
              | LAt i d =>
                  match nth_error ms i with
                  | None => Panic
                  | Some m =>
                      let* (out, h1) := de_next (m_deser m) d h e in
                      go (all_handle i m fields out fb h1)
                  end
              | st =>
                  if is_end e then
                    let* (vals, h1) := finish_fields ms fields h in
                    Ok (DOut (AData (a, vals)) (if elem then DNone else DContinue e) false, h1)
                  else go (all_find e fields (get_or_insert fb st) h)
              end
          end
      end.

    Definition all_fuel : nat := 4.
    Definition all_next (d : ldes) (h : dhelper) (e : event) : dresult (A * list (list V)) ldes :=
      all_loop all_fuel (ld_attrs d) (ld_fields d, ld_state d, None, h) e.

    Definition all_finish (d : ldes) (h : dhelper) : outcome kind ((A * list (list V)) * dhelper) :=
      let* (fields, h1) := all_finish_state (ld_fields d) (ld_state d) h in
      let* (vals, h2) := finish_fields ms fields h1 in
      Ok ((ld_attrs d, vals), h2).

    Definition all_new (a : A) : ldes := LDes a (no_fields ms) LInit.

    Definition all_init_element (h : dhelper) (e : event) : dresult (A * list (list V)) ldes :=
      match e with
      | EStart n attrs =>
          let* (a, h') := from_start h n attrs in
          Ok (DOut (ADes (all_new a)) DNone false, h')
      | EEmpty n attrs =>
          let* (a, h') := from_start h n attrs in
          let* (v, h'') := all_finish (all_new a) h' in
          Ok (DOut (AData v) DNone false, h'')
      | e => Ok (DOut ANone (DContinue e) false, h)
      end.

    Definition all_init_group (h : dhelper) (e : event) : dresult (A * list (list V)) ldes :=
      let* (out, h') := all_next (all_new no_attrs) h e in
      Ok (DOut (match o_art out with
                | ADes d => match ld_state d with LInit => ANone | _ => ADes d end
                | art => art
                end) (o_ev out) (o_any out), h').

    Definition all_deser : deser (A * list (list V)) ldes :=
      Deser (if elem then all_init_element else all_init_group) all_next all_finish.
  End All.

  (** ** Structs without content *)
  Section Empty.
    Variable allow_any : bool.
    Variable mixed : bool.

    (** The state has one value; the deserializer is the attributes. *)
    Definition empty_finish (a : A) (h : dhelper) : outcome kind (A * dhelper) := Ok (a, h).

    (** deserialize.rs 2116-2163 [next] of an empty struct that represents an element. *)
    Definition empty_next (a : A) (h : dhelper) (e : event) : dresult A A :=
      if is_end e then Ok (DOut (AData a) DNone false, h)
      else if mixed && is_chars e then Ok (DOut (ADes a) DNone allow_any, h)
      else Ok (DOut (ADes a) (DBreak e) allow_any, h).

    (** deserialize.rs 1041-1052 with lib deserialize.rs 1038-1076. *)
    Definition empty_init (h : dhelper) (e : event) : dresult A A :=
      match e with
      | EStart n attrs =>
          let* (a, h') := from_start h n attrs in
          Ok (DOut (ADes a) DNone false, h')
      | EEmpty n attrs =>
          let* (a, h') := from_start h n attrs in
          Ok (DOut (AData a) DNone false, h')
      | e => Ok (DOut ANone (DContinue e) false, h)
      end.

    Definition empty_deser : deser A A := Deser empty_init empty_next empty_finish.
  End Empty.

  (** ** Structs with simple content: attributes and a text *)
  Section Simple.
    Variable charref : bytes -> option bytes.
    Variable utf8_ok : bytes -> bool.
    Context {T : Type}.
    (** [T::deserialize_bytes] of the type of the content. *)
    Variable parse : dhelper -> bytes -> outcome kind (T * dhelper).
    Notation content := (content_deser charref utf8_ok parse).

    (** deserialize.rs 1590-1616: [None] is the state [Init__]. *)
    Definition tdes : Type := (A * option bytes)%type.

    (** deserialize.rs 2664-2727 [handle_content] with 2568-2640 ([store_content] and
        [finish] for exactly one content). *)
    Definition simple_handle (a : A) (r : dresult T bytes) : dresult (A * T) tdes :=
      let* (out, h) := r in
      Ok (DOut (match o_art out with
                | ANone => ANone
                | AData t => AData (a, t)
                | ADes d => ADes (a, Some d)
                end) (o_ev out) (o_any out), h).

    (** deserialize.rs 2165-2189 [next]. *)
    Definition simple_next (d : tdes) (h : dhelper) (e : event) : dresult (A * T) tdes :=
      match d with
      | (a, None) => simple_handle a (de_init content h e)
      | (a, Some c) => simple_handle a (de_next content c h e)
      end.

    (** deserialize.rs 2490-2519, 1957-1965 [finish]. *)
    Definition simple_finish (d : tdes) (h : dhelper) : outcome kind ((A * T) * dhelper) :=
      match d with
      | (a, None) => Err KMissingContent
      | (a, Some c) => let* (t, h') := de_finish content c h in Ok ((a, t), h')
      end.

    (** deserialize.rs 2027-2052 [init]. *)
    Definition simple_init (h : dhelper) (e : event) : dresult (A * T) tdes :=
      match e with
      | EStart n attrs | EEmpty n attrs =>
          let* (a, h') := from_start h n attrs in
          simple_next (a, None) h' e
      | e => Ok (DOut ANone (DBreak e) false, h)
      end.

    Definition simple_deser : deser (A * T) tdes := Deser simple_init simple_next simple_finish.
  End Simple.
End Generated.
