(** Specification: where an error is. *)
From Verif Require Export ReaderModel ScopeSpec.

(** The readers of slices and streams. *)
Definition readers : list (xreader base) := [slice_reader; io_reader].

(** The events of a stretch of items. *)
Definition item_events (items : list item) : list event :=
  flat_map (fun i => match i with IEvent e _ _ => [e] | IError _ _ _ => [] end) items.
Definition is_event (i : item) : Prop := match i with IEvent _ _ _ => True | IError _ _ _ => False end.

Definition names (lossy : bytes -> bytes) (els : list (bytes * list attr)) : list bytes :=
  map (fun x => lossy (fst x)) els.

(** The error was raised at the last of the items [read]: its position is the one behind
    that item, its elements are those open behind it. *)
Definition raised_at (lossy : bytes -> bytes) (read : list item) (err : error) : Prop :=
  exists before i, read = (before ++ [i])%list /\ Forall is_event before /\
    e_position err = Some (item_pos i) /\
    e_elements err = Some (names lossy (open_elements (item_events read))) /\
    match i with IError k _ _ => e_kind err = k | IEvent _ _ _ => True end.

(** An event that is not the tag at which an element ends. *)
Definition not_closing (i : item) : Prop :=
  match i with IEvent (EEnd _) _ _ | IEvent (EEmpty _ _) _ _ | IError _ _ _ => False | _ => True end.

(** Results without the names of the elements, and without the buffer. *)
Definition forget_path {T R} (r : result (T := T) (R := R * list bytes)) : result (T := T) (R := R) :=
  match r with
  | XValue t r => XValue t (fst r)
  | XError e => XError (Error (e_kind e) (e_position e) None)
  | XPanic => XPanic
  | XMore => XMore
  end.
Definition forget_buffer {T} (r : result (T := T) (R := base)) : result (T := T) (R := base) :=
  match r with XValue t b => XValue t (Base (b_items b) (b_pos b) 0) | r => r end.

(** The number of bytes of some items. *)
Definition total_size (items : list item) : nat := fold_right (fun i n => item_size i + n) 0 items.

(** A number, for the examples: texts of digits only. *)
Fixpoint digits_only (s : string) : bool :=
  match s with
  | EmptyString => true
  | String c s' => (Nat.leb 48 (nat_of_ascii c) && Nat.leb (nat_of_ascii c) 57) && digits_only s'
  end.
Definition number (h : dhelper) (raw : bytes) : outcome kind (bytes * dhelper) :=
  if negb (String.eqb raw "") && digits_only raw then Ok (raw, h) else Err (KInvalidData raw).
Definition number_des : deser bytes bytes := content_deser (fun _ => None) utf8_valid number.
