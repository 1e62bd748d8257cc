(** Model of the readers and of the errors they complete
    (xsd-parser-types/src/quick_xml/reader/*.rs, error.rs, deserialize.rs 345-427,
    1349-1385). *)
From Verif Require Export DeModel.
Local Open Scope string_scope.

(** What quick-xml's reader yields for one call: an event or an error, with
    [buffer_position()] afterwards and the number of bytes it appended to the buffer it
    was given.  This is the boundary to quick-xml. *)
Inductive item : Type :=
| IEvent (e : event) (pos size : nat)
| IError (k : kind) (pos size : nat).
Definition item_pos (i : item) : nat := match i with IEvent _ p _ | IError _ p _ => p end.
Definition item_size (i : item) : nat := match i with IEvent _ _ s | IError _ _ s => s end.

(** error.rs 18-30 [struct Error]. *)
Record error : Type := Error { e_kind : kind; e_position : option nat; e_elements : option (list bytes) }.

(** error.rs 260-269 [new], 271-276 [with_pos], 278-282 [with_error_info] (the names
    innermost first in [ErrorInfo] of DeModel, outermost first in the error). *)
Definition new_error (k : kind) : error := Error k None None.
Definition with_pos (e : error) (p : nat) : error := Error (e_kind e) (Some p) (e_elements e).
Definition with_error_info (e : error) (els : list bytes) : error :=
  Error (e_kind e) (e_position e) (Some (rev els)).

(** reader/mod.rs 22-50: the traits [XmlReader], [XmlReaderSync] and [XmlReaderAsync].
    [None]: the given stretch of items ends here. *)
Record xreader (R : Type) := XReader {
  x_read : R -> option ((event + error) * R);
  x_extend : R -> error -> error
}.
Arguments XReader {R} _ _.
Arguments x_read {R} _ _.
Arguments x_extend {R} _ _ _.

(** slice_reader.rs 8-10 [SliceReader], io_reader.rs 12-15 [IoReader]: the items still to
    come, the position and the length of the buffer of [IoReader]. *)
Record base : Type := Base { b_items : list item; b_pos : nat; b_buffer : nat }.
Definition base_new (items : list item) : base := Base items 0 0.

Definition base_read (keeps : bool) (b : base) : option ((event + error) * base) :=
  match b_items b with
  | [] => None
  | i :: rest =>
      let b' := Base rest (item_pos i) (if keeps then b_buffer b + item_size i else b_buffer b) in
      Some (match i with IEvent e _ _ => inl e | IError k _ _ => inr (new_error k) end, b')
  end.

(** slice_reader.rs 30-40 (44-53 for the asynchronous one) and io_reader.rs 28-43 (46-63):
    the buffer of [IoReader] is never cleared. *)
Definition slice_reader : xreader base := XReader (base_read false) (fun b e => with_pos e (b_pos b)).
Definition io_reader : xreader base := XReader (base_read true) (fun b e => with_pos e (b_pos b)).

Section ErrorReader.
  (** [String::from_utf8_lossy]. *)
  Variable lossy : bytes -> bytes.
  Context {R : Type} (inner : xreader R).

  (** error_reader.rs 35-44 [extend_error]. *)
  Definition error_extend (r : R * list bytes) (e : error) : error :=
    with_error_info (x_extend inner (fst r) e) (snd r).

  (** error_reader.rs 46-57 [read_event]. *)
  Definition error_read (r : R * list bytes) : option ((event + error) * (R * list bytes)) :=
    match x_read inner (fst r) with
    | None => None
    | Some (inl e, r') => Some (inl e, (r', error_info_update lossy (snd r) e))
    | Some (inr err, r') => Some (inr err, (r', snd r))
    end.

  (** error_reader.rs 99-126 [ReadEventFut::poll]: here errors get the names at once. *)
  Definition error_read_async (r : R * list bytes) : option ((event + error) * (R * list bytes)) :=
    match x_read inner (fst r) with
    | None => None
    | Some (inl e, r') => Some (inl e, (r', error_info_update lossy (snd r) e))
    | Some (inr err, r') => Some (inr (with_error_info err (snd r)), (r', snd r))
    end.

  (** error_reader.rs 19-32. *)
  Definition error_reader : xreader (R * list bytes) := XReader error_read error_extend.
  Definition error_reader_async : xreader (R * list bytes) := XReader error_read_async error_extend.
End ErrorReader.

(** ** Reading a value *)

Section Deserialize.
  Context {T D R : Type} (des : deser T D) (tb : bytes -> option bool) (x : xreader R).

  Inductive result : Type :=
  | XValue (t : T) (r : R)
  | XError (e : error)
  | XPanic
  | XMore.

  (** deserialize.rs 1356-1364 [deserialize_sync] and 1372-1380 [deserialize_async] with at
      most [fuel] events; 371-374 and 420-424 complete the error. *)
  Fixpoint read_loop (fuel : nat) (v : driver D) (r : R) : result :=
    match fuel with
    | O => XMore
    | S fuel' =>
        match x_read x r with
        | None => XMore
        | Some (inr err, r') => XError (x_extend x r' err)
        | Some (inl e, r') =>
            match driver_step des tb v e with
            | Panic => XPanic
            | Err k => XError (x_extend x r' (new_error k))
            | Ok (Some t, _) => XValue t r'
            | Ok (None, v') => read_loop fuel' v' r'
            end
        end
    end.

  (** deserialize.rs 370-374, 415-425: every call begins with a new helper (1275-1283). *)
  Definition deserialize (fuel : nat) (r : R) : result := read_loop fuel driver_new r.
End Deserialize.
Arguments XValue {T R} _ _.
Arguments XError {T R} _.
Arguments XPanic {T R}.
Arguments XMore {T R}.

(** The reader after [n] calls by the user. *)
Fixpoint read_n {R} (x : xreader R) (n : nat) (r : R) : option R :=
  match n with
  | O => Some r
  | S n' => match x_read x r with Some (inl _, r') => read_n x n' r' | _ => None end
  end.
