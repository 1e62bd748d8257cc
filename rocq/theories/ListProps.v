(** Properties C22 and C23: lists of simple values, occurrence bounds. *)
From Verif Require Import DeModel TextModel TextProofs TextProps ListModel ListSpec ListProofs.
Local Open Scope string_scope.

(** C22.  Writing a list of items and reading the text back gives the items'
    lexical forms to the item type, in order.  Missing: the full statement wants
    this for every text whose words are separated by runs of white space, see
    [C22_runs_refuted], and for every list, see [C22_empty_item_refuted]. *)
Theorem C22_round_trip_partial : forall (T : Type) (parse : dhelper -> bytes -> outcome kind (T * dhelper)) h ws,
  (forall w, In w ws -> word w) ->
  deserialize_list parse h (match list_write (map Some ws) with Some t => t | None => "" end) = parse_all parse h ws.
Proof.
  intros T parse h ws HW. destruct ws as [|w ws]; [reflexivity|].
  destruct (list_write_text (w :: ws)) as (t & -> & HT); [discriminate|exact HW|].
  rewrite <- (append_nil_r' t). change (t ++ "") with ("" ++ t ++ "").
  apply (list_read parse h blank_gap); [|exact HT|intros c []|intros c []].
  intros g ->. exists " "%char. split; [left; reflexivity|reflexivity].
Qed.
Print Assumptions C22_round_trip_partial.

(** Any single white space character separates, white space around the list is
    ignored, and blank text is the empty list. *)
Theorem C22_separators_partial : forall (T : Type) (parse : dhelper -> bytes -> outcome kind (T * dhelper)) h ws t a b,
  list_text char_gap ws t -> all_chars xml_space a -> all_chars xml_space b ->
  deserialize_list parse h (a ++ t ++ b) = parse_all parse h ws.
Proof. intros T parse h ws t a b. apply list_read. auto. Qed.
Print Assumptions C22_separators_partial.

Theorem C22_blank : forall (T : Type) (parse : dhelper -> bytes -> outcome kind (T * dhelper)) h a,
  all_chars xml_space a -> deserialize_list parse h a = Ok ([], h).
Proof. intros T parse h a. apply list_read_blank. Qed.
Print Assumptions C22_blank.

(** A fixed-size list is accepted iff it has the right number of fields and every
    field converts. *)
Theorem C22_array : forall (T : Type) (parse : dhelper -> bytes -> outcome kind (T * dhelper)) N h ws t a b vs h',
  list_text char_gap ws t -> all_chars xml_space a -> all_chars xml_space b ->
  (deserialize_arr parse N h (a ++ t ++ b) = Ok (vs, h') <-> length ws = N /\ parse_all parse h ws = Ok (vs, h')).
Proof.
  intros T parse N h ws t a b vs h' HT Ha Hb. rewrite (arr_read parse N h _ vs h').
  rewrite (list_text_trim char_gap ws t a b HT Ha Hb), (split_text char_gap ws t); [reflexivity|auto|exact HT].
Qed.
Print Assumptions C22_array.

(** Refuted: two blanks between items make an empty item. *)
Definition parse_word (h : dhelper) (b : bytes) : outcome kind (bytes * dhelper) :=
  match b with EmptyString => Err (KInvalidValue "") | _ => Ok (b, h) end.
Definition h0 : dhelper := v_helper (@driver_new unit).

Lemma word_a : word "a".
Proof. split; [discriminate|]. intros c [<-|[]]. reflexivity. Qed.
Lemma word_b : word "b".
Proof. split; [discriminate|]. intros c [<-|[]]. reflexivity. Qed.

Theorem C22_runs_refuted : exists ws t k,
  list_text run_gap ws t /\ parse_all parse_word h0 ws = Ok (ws, h0) /\
  deserialize_list parse_word h0 t = Err k /\
  deserialize_list parse_string h0 t = Ok (["a"; ""; "b"], h0).
Proof.
  exists ["a"; "b"], "a  b", (KInvalidValue ""). split; [|split; [|split]]; try reflexivity.
  apply (lt_cons run_gap "a" "  " ["b"] "b"); [apply word_a| |constructor; apply word_b].
  split; [discriminate|]. intros c [<-|[<-|[]]]; left; reflexivity.
Qed.
Print Assumptions C22_runs_refuted.

(** Refuted: an item that is written as the empty string is lost at the start of a list. *)
Theorem C22_empty_item_refuted : exists ws t vs,
  list_write (map Some ws) = Some t /\ parse_all parse_string h0 ws = Ok (ws, h0) /\
  deserialize_list parse_string h0 t = Ok (vs, h0) /\ vs <> ws.
Proof. exists [""; "a"], "a", ["a"]. repeat split; try reflexivity. discriminate. Qed.
Print Assumptions C22_empty_item_refuted.

(** Refuted: a list of fixed size zero accepts nothing, not even the empty text. *)
Theorem C22_empty_array_refuted : forall (T : Type) (parse : dhelper -> bytes -> outcome kind (T * dhelper)) h s r,
  deserialize_arr parse 0 h s <> Ok r.
Proof.
  intros T parse h s [vs h'] H. apply arr_read in H as [H _].
  destruct (trim_ascii s) as [|c t]; cbn in H; [discriminate|].
  destruct (list_sep c); [discriminate|]. destruct (split_on t); discriminate.
Qed.
Print Assumptions C22_empty_array_refuted.

Example ex_list : deserialize_list parse_string h0 "
 a b
" = Ok (["a"; "b"], h0) /\ list_write [Some "a"; None; Some "b"] = Some "a b".
Proof. split; reflexivity. Qed.
Example ex_list_text : list_text char_gap ["a"; "b"] "a
b".
Proof.
  apply (lt_cons char_gap "a" "
" ["b"] "b"); [apply word_a| |constructor; apply word_b].
  exists "010"%char. split; [right; right; left; reflexivity|reflexivity].
Qed.

(** C23.  A list whose length is within its bounds is accepted unchanged.  Missing:
    the converse, which fails for every list and all sensible bounds, see
    [C23_vec_refuted]. *)
Theorem C23_vec_partial : forall (T : Type) min max (v : list T),
  in_bounds min max (length v) -> finish_vec min max v = Ok v.
Proof.
  intros T min max v [H1 H2]. unfold finish_vec.
  replace (Nat.ltb (length v) min) with false by (symmetry; apply Nat.ltb_ge; exact H1). reflexivity.
Qed.
Print Assumptions C23_vec_partial.

(** Refuted: whatever the length, finishing a list never reports a size error. *)
Theorem C23_vec_refuted : forall (T : Type) min max (v : list T),
  match max with Some m => min <= m | None => True end -> finish_vec min max v = Ok v.
Proof. intros T. apply finish_vec_never_fails. Qed.
Print Assumptions C23_vec_refuted.

Example C23_vec_refuted_witness :
  ~ in_bounds 2 (Some 3) (length ["a"]) /\ finish_vec 2 (Some 3) ["a"] = Ok ["a"] /\
  ~ in_bounds 0 (Some 1) (length ["a"; "b"]) /\ finish_vec 0 (Some 1) ["a"; "b"] = Ok ["a"; "b"].
Proof. unfold in_bounds. cbn. repeat split; lia. Qed.

(** An array is accepted iff it has the right size, and the error says why. *)
Theorem C23_arr : forall (T : Type) N (v : list T),
  (in_bounds N (Some N) (length v) -> finish_arr N v = Ok v) /\
  (~ in_bounds N (Some N) (length v) -> finish_arr N v = Err (KInsufficientSize N (Some N) (length v))).
Proof.
  intros T N v. unfold in_bounds, finish_arr. split; intros H.
  - replace (length v) with N by lia. rewrite Nat.eqb_refl. reflexivity.
  - destruct (Nat.eqb_spec (length v) N); [lia|reflexivity].
Qed.
Print Assumptions C23_arr.

(** A list with defaults keeps its items and is filled with default values up to
    the lower bound, and no further. *)
Theorem C23_vec_default : forall (T : Type) (dflt : dhelper -> outcome kind (T * dhelper)) min h v v' h',
  finish_vec_default dflt min h v = Ok (v', h') ->
  exists ds, v' = (v ++ ds)%list /\ length v' = Nat.max min (length v) /\
    Forall (fun t => exists h1 h2, dflt h1 = Ok (t, h2)) ds.
Proof.
  intros T dflt min h v v' h' H. apply push_defaults_ok in H as (ds & -> & HL & HF).
  exists ds. rewrite app_length. repeat split; [lia|exact HF].
Qed.
Print Assumptions C23_vec_default.

Theorem C23_arr_default_partial : forall (T : Type) (dflt : dhelper -> outcome kind (T * dhelper)) N h v,
  (forall h, exists t h', dflt h = Ok (t, h')) -> length v <= N ->
  exists ds h', finish_arr_default dflt N h v = Ok ((v ++ ds)%list, h') /\ length (v ++ ds) = N.
Proof.
  intros T dflt N h v HD HL. unfold finish_arr_default, finish_vec_default.
  destruct (push_defaults_total dflt (N - length v) HD h v) as (v' & h' & E). rewrite E.
  apply push_defaults_ok in E as (ds & -> & HN & _). exists ds, h'.
  assert (length (v ++ ds) = N) by (rewrite app_length; lia). rewrite H, Nat.eqb_refl. auto.
Qed.
Print Assumptions C23_arr_default_partial.

(** Refuted: more items than the array holds is a panic, not an error. *)
Theorem C23_arr_default_refuted : forall (T : Type) (dflt : dhelper -> outcome kind (T * dhelper)) N h v,
  N < length v -> finish_arr_default dflt N h v = Panic.
Proof.
  intros T dflt N h v H. unfold finish_arr_default, finish_vec_default.
  replace (N - length v) with 0 by lia. cbn. destruct (Nat.eqb_spec (length v) N); [lia|reflexivity].
Qed.
Print Assumptions C23_arr_default_refuted.

(** Optional and default values *)
Theorem C23_single : forall (T : Type) (dflt : dhelper -> outcome kind (T * dhelper)) h name (v : option T),
  (v = None -> finish_content v = Err KMissingContent /\ finish_element name v = Err (KMissingElement name) /\
               finish_default dflt h v = dflt h) /\
  (forall t, v = Some t -> finish_content v = Ok t /\ finish_element name v = Ok t /\ finish_default dflt h v = Ok (t, h)).
Proof. intros T dflt h name v. split; [intros -> | intros t ->]; repeat split. Qed.
Print Assumptions C23_single.

Example ex_bounds : finish_arr 2 ["a"; "b"] = Ok ["a"; "b"] /\
  finish_vec_default (fun h => Ok ("d", h)) 3 h0 ["a"] = Ok (["a"; "d"; "d"], h0).
Proof. split; reflexivity. Qed.
