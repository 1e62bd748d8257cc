(** Property C104: where errors are, and reading from different readers. *)
From Verif Require Import ReaderModel ReaderSpec ReaderProofs ScopeProofs DeProofs.
Local Open Scope string_scope.

(** C104.  An error of any value read from a reader with error information, at the
    beginning or after any number of events the user took or of values read before, is
    raised at some item behind those: its position is the one behind that item, its path
    has the elements of the whole document that are open there.  An error of the XML reader
    is passed on. *)
Theorem C104_where : forall (T D : Type) (des : deser T D) tb lossy x items n r fuel err, In x readers ->
  read_n (error_reader lossy x) n (base_new items, []) = Some r ->
  deserialize des tb (error_reader lossy x) fuel r = XError err ->
  exists read rest, items = (read ++ rest)%list /\ n < length read /\ raised_at lossy read err.
Proof.
  intros T D des tb lossy x items n r fuel err HX HN HE. destruct (readers_base x HX) as [keeps ->].
  destruct (read_n_seen lossy keeps n [] items 0 0 r HN (Forall_nil _)) as (a & b & pos & buf & -> & L & F & ->).
  destruct (loop_where des tb lossy keeps fuel driver_new a b pos buf err F HE) as (read & rest & -> & NE & HR).
  exists (a ++ read)%list, rest. split; [apply app_assoc|]. split; [|exact HR].
  rewrite app_length, L. destruct read; [congruence|cbn; lia].
Qed.
Print Assumptions C104_where.

(** The path ends with the element in which the event stands, if the event is not the tag
    that ends the element. *)
Theorem C104_inside_partial : forall lossy before i err, raised_at lossy (before ++ [i]) err -> not_closing i ->
  e_elements err = Some (names lossy (enclosing (item_events (before ++ [i])))).
Proof.
  intros lossy before i err (b & j & E & _ & _ & H & _) HN. rewrite H. f_equal. f_equal.
  destruct i as [e p s|k p s]; [|contradiction]. rewrite item_events_app. cbn [item_events flat_map app].
  rewrite enclosing_snoc. fold (item_events before).
  rewrite <- (rev_involutive (open_elements (item_events before ++ [e]))), open_snoc.
  destruct e; cbn [stk_upd rev]; rewrite ?rev_involutive, ?app_nil_r; try reflexivity; contradiction.
Qed.
Print Assumptions C104_inside_partial.

(** A value is the one the deserializer makes of the events read, and the reader goes on
    behind them with the right path. *)
Theorem C104_value : forall (T D : Type) (des : deser T D) tb lossy x items n r fuel t r', In x readers ->
  read_n (error_reader lossy x) n (base_new items, []) = Some r ->
  deserialize des tb (error_reader lossy x) fuel r = XValue t r' ->
  exists before read rest, items = (before ++ read ++ rest)%list /\ length before = n /\
    driver_run des tb driver_new (item_events read) = RDone t [] /\
    b_items (fst r') = rest /\ rev (snd r') = names lossy (open_elements (item_events (before ++ read))).
Proof.
  intros T D des tb lossy x items n r fuel t r' HX HN HE. destruct (readers_base x HX) as [keeps ->].
  destruct (read_n_seen lossy keeps n [] items 0 0 r HN (Forall_nil _)) as (a & b & pos & buf & -> & L & F & ->).
  destruct (loop_value des tb lossy keeps fuel driver_new a b pos buf t r' F HE) as (read & rest & pos' & buf' & -> & _ & -> & H).
  exists a, read, rest. cbn [fst snd b_items]. repeat split; auto. apply rev_path.
Qed.
Print Assumptions C104_value.

(** The error information changes nothing but the path of errors; asynchronous reading
    gives the same; so does reading from a stream instead of a slice. *)
Theorem C104_same : forall (T D : Type) (des : deser T D) tb lossy x fuel items els, In x readers ->
  forget_path (deserialize des tb (error_reader lossy x) fuel (base_new items, els)) =
    deserialize des tb x fuel (base_new items) /\
  deserialize des tb (error_reader_async lossy x) fuel (base_new items, els) =
    deserialize des tb (error_reader lossy x) fuel (base_new items, els) /\
  forget_buffer (deserialize des tb io_reader fuel (base_new items)) =
    deserialize des tb slice_reader fuel (base_new items).
Proof.
  intros T D des tb lossy x fuel items els HX. destruct (readers_base x HX) as [keeps ->].
  split; [apply loop_forget|]. split; [apply loop_async|apply loop_keeps].
Qed.
Print Assumptions C104_same.

(** A document with a wrong number: the position behind the text, the path of the list. *)
Example C104_example :
  let items := [IEvent (EStart "list" []) 6 4; IEvent (EStart "n" []) 9 1; IEvent (EText "&bad;") 12 3; IEvent (EEnd "n") 16 2] in
  (exists r, read_n (error_reader (fun x => x) slice_reader) 1 (base_new items, []) = Some r /\
    deserialize number_des blank (error_reader (fun x => x) slice_reader) 9 r =
      XError (Error KEscape (Some 12) (Some ["list"; "n"]))) /\
  not_closing (IEvent (EText "&bad;") 12 3).
Proof. cbn zeta. split; [eexists; split; vm_compute; reflexivity|exact I]. Qed.

(** "The path is that of the element where the error occurred" is false at the end of an
    element: the value of an element is checked at its end tag, or at the empty tag, and
    the path leaves the element out. *)
Theorem C104_closing_refuted : forall x, In x readers -> exists items err items' err',
  deserialize number_des blank (error_reader (fun x => x) x) 9 (base_new items, []) = XError err /\
  raised_at (fun x => x) items err /\ enclosing (item_events items) = [("n", [])] /\
  e_kind err = KInvalidData "x" /\ e_elements err = Some [] /\
  deserialize number_des blank (error_reader (fun x => x) x) 9 (base_new items', []) = XError err' /\
  raised_at (fun x => x) items' err' /\ enclosing (item_events items') = [("n", [])] /\
  e_kind err' = KInvalidData "" /\ e_elements err' = Some [].
Proof.
  intros x HX.
  exists [IEvent (EStart "n" []) 3 1; IEvent (EText "x") 4 1; IEvent (EEnd "n") 8 2], (Error (KInvalidData "x") (Some 8) (Some [])),
         [IEvent (EEmpty "n" []) 4 2], (Error (KInvalidData "") (Some 4) (Some [])).
  assert (R : forall a b, Forall is_event a -> is_event b ->
     forall k, raised_at (fun x => x) (a ++ [b]) (Error k (Some (item_pos b)) (Some (names (fun x => x) (open_elements (item_events (a ++ [b]))))))).
  { intros a b Fa Fb k. exists a, b. repeat split; auto. destruct b; [exact I|contradiction]. }
  destruct HX as [<-|[<-|[]]]; (split; [vm_compute; reflexivity|]; split; [|split; [reflexivity|split; [reflexivity|split; [reflexivity|
    split; [vm_compute; reflexivity|split; [|split; [reflexivity|split; reflexivity]]]]]]]).
  1,3: exact (R [IEvent (EStart "n" []) 3 1; IEvent (EText "x") 4 1] (IEvent (EEnd "n") 8 2) ltac:(repeat constructor) I (KInvalidData "x")).
  all: exact (R [] (IEvent (EEmpty "n" []) 4 2) ltac:(constructor) I (KInvalidData "")).
Qed.
Print Assumptions C104_closing_refuted.

(** "A value may be read from inside a document" is false for names: the declarations of
    elements opened before are not known. *)
Theorem C104_prefix_refuted : exists items r s r',
  read_n (error_reader (fun x => x) slice_reader) 1 (base_new items, []) = Some r /\
  deserialize (scope_des value_des) blank (error_reader (fun x => x) slice_reader) 9 r = XValue s r' /\
  b_items (fst r') = [] /\ bound (Some "p") "urn:1" (enclosing (item_events items)) /\ s_inner s = "p:x" /\ s_ns s = [].
Proof.
  exists [IEvent (EStart "r" [("xmlns:p", "urn:1")]) 20 18; IEvent (EStart "v" []) 23 1; IEvent (EText "p:x") 26 3; IEvent (EEnd "v") 30 2].
  do 3 eexists. split; [vm_compute; reflexivity|]. split; [vm_compute; reflexivity|]. split; [reflexivity|].
  split; [split; [vm_compute; reflexivity|discriminate]|]. split; reflexivity.
Qed.
Print Assumptions C104_prefix_refuted.

(** The memory of the stream reader: all the bytes of the document read so far stay in its
    buffer, so no bound holds even for small events ... *)
Theorem C104_buffer : forall (T D : Type) (des : deser T D) tb fuel items t b,
  deserialize des tb io_reader fuel (base_new items) = XValue t b ->
  exists read, items = (read ++ b_items b)%list /\ b_buffer b = total_size read.
Proof. intros T D des tb fuel items t b H. apply (loop_buffer des tb fuel _ _ _ _ _ _ H). Qed.
Print Assumptions C104_buffer.

Theorem C104_memory_refuted : forall bound, exists items fuel b,
  Forall (fun i => item_size i = 1) items /\
  deserialize number_des blank io_reader fuel (base_new items) = XValue "7" b /\ bound < b_buffer b.
Proof.
  intros k.
  exists ([IEvent (EStart "n" []) 0 1; IEvent (EText "7") 0 1] ++ repeat (IEvent (EComment "") 0 1) k ++ [IEvent (EEnd "n") 0 1])%list,
         (2 + (k + 1)).
  eexists. split; [|split].
  - repeat constructor. apply Forall_app. split; [|repeat constructor]. apply Forall_forall. intros i Hi. apply repeat_spec in Hi. rewrite Hi. reflexivity.
  - unfold deserialize, base_new. cbn [app Nat.add]. cbn [read_loop io_reader x_read base_read b_items item_pos item_size b_buffer].
    change (driver_step number_des blank driver_new (EStart "n" [])) with
      (Ok (@None bytes, Driver (DHelper 1 (Resolver 1 []) [(0, None)] false) (Some "") None) : outcome kind (option bytes * driver bytes)).
    cbn iota beta. cbn [read_loop io_reader x_read base_read b_items item_pos item_size b_buffer].
    change (driver_step number_des blank (Driver (DHelper 1 (Resolver 1 []) [(0, None)] false) (Some "") None) (EText "7")) with
      (Ok (@None bytes, Driver (DHelper 1 (Resolver 1 []) [(0, None)] false) (Some "7") None) : outcome kind (option bytes * driver bytes)).
    cbn iota beta. rewrite (comments_read blank 1) by reflexivity. reflexivity.
  - cbn. lia.
Qed.
Print Assumptions C104_memory_refuted.
