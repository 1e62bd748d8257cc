(** Properties C18, C52 (third part), C53 and C54: values of unknown simple type. *)
From Coq Require Import ZArith.
From Verif Require Import Utf8 SerHelperModel QNameModel DeModel ElementModel TextModel TextSpec TextProps
  BinModel BinSpec BinProofs ListModel ListProofs WrapModel AnySimpleModel AnySimpleSpec AnySimpleProofs.
Local Open Scope string_scope.

(** No further number types, for examples. *)
Definition no_parse : bytes -> bytes -> option unit := fun _ _ => None.
Definition no_print : bytes -> unit -> bytes := fun _ _ => "".
Definition any_reader := any_deser no_parse no_charref utf8_valid.
Definition plain_blank : bytes -> option bool := fun _ => Some true.
Definition xsi_decls : list attr := [("xmlns:xs", XS_NS); ("xmlns:xsi", XSI_NS)].

(** C53.  Full statement: every value comes back unchanged.  It is false for text
    with white space at its ends, for qualified names with a namespace, and for
    an item of a list with white space in it. *)
Definition read_back (v v' : asv unit) : Prop :=
  exists evs evs' h', ser_run (aser_next no_print) 5 (asv_serializer v None) helper_default = SRDone evs h' /\
    reread evs = Some evs' /\ driver_run any_reader plain_blank driver_new evs' = RDone v' [].

Theorem C53_white_space_refuted : read_back (VText "string" " a ") (VText "string" "a").
Proof. do 3 eexists. split; [reflexivity|]. split; vm_compute; reflexivity. Qed.
Print Assumptions C53_white_space_refuted.

Theorem C53_qname_refuted :
  read_back (VQName (QName "p:x" (Some 1) (Some "urn:p"))) (VQName (QName "p:x" (Some 1) None)).
Proof. do 3 eexists. split; [reflexivity|]. split; vm_compute; reflexivity. Qed.
Print Assumptions C53_qname_refuted.

(** A name without namespace gets the default namespace of the place where it is written. *)
Theorem C53_default_refuted : exists evs evs' h' dh,
  ser_run (aser_next no_print) 5 (asv_serializer (VQName (qname_from_bytes "local")) (Some "v")) (fst (write_xmlns helper_default None "urn:d"))
    = SRDone evs h' /\
  reread evs = Some evs' /\ dh_event dhelper_default (EStart "r" [("xmlns", "urn:d")]) = Some dh /\
  driver_run any_reader plain_blank (Driver dh None None) evs' = RDone (VQName (QName "local" None (Some "urn:d"))) [].
Proof. do 4 eexists. split; [reflexivity|]. split; [vm_compute; reflexivity|]. split; vm_compute; reflexivity. Qed.
Print Assumptions C53_default_refuted.

Theorem C53_list_refuted : read_back (VList "NMTOKENS" ["a b"; ""]) (VList "NMTOKENS" ["a"; "b"]).
Proof. do 3 eexists. split; [reflexivity|]. split; vm_compute; reflexivity. Qed.
Print Assumptions C53_list_refuted.

(** For all other values, wherever they are written and read. *)
Theorem C53_round_trip_partial : forall (Num : Type) (num_parse : bytes -> bytes -> option Num) num_print charref tb
  (v : asv Num) n h dh rest,
  keeps_text num_parse num_print v -> fit h dh -> named_in (d_res (dh_pop dh)) v ->
  exists evs evs' h' v',
    (forall fuel, 4 <= fuel -> ser_run (aser_next num_print) fuel (ABegin n v) h = SRDone evs h') /\
    reread evs = Some evs' /\
    driver_run (any_deser num_parse charref utf8_valid) tb (Driver dh None None) (evs' ++ rest) = RDone v' rest /\
    same_value v v'.
Proof. exact (@any_round_trip). Qed.
Print Assumptions C53_round_trip_partial.

Example C53_values : keeps_text no_parse no_print (VText "token" "a&b <c") /\
  keeps_text no_parse no_print (VInt "short" (-32768)) /\
  keeps_text no_parse no_print (VList "IDREFS" ["x"; "y"]) /\
  keeps_text no_parse no_print (VQName (qname_from_bytes "local")) /\
  fit helper_default dhelper_default /\
  named_in (d_res (dh_pop dhelper_default)) (VQName (Num := unit) (qname_from_bytes "local")).
Proof.
  assert (G : forall s : bytes, forallb graph_b (list_ascii_of_string s) = true -> graphic s).
  { intros s H c Hc. rewrite forallb_forall in H. apply graph_b_spec, H, Hc. }
  assert (W : forall c : ascii, graph_b c = true -> solid (String c "")).
  { intros c H. assert (GC : graphic (String c "")) by (apply G; cbn; rewrite H; reflexivity).
    split; [apply (graphic_clean _ GC)|]. split; [discriminate|]. intros a w b E HI.
    assert (HW : forall d, In d (list_ascii_of_string w) -> graph_b d = true).
    { intros d Hd. assert (In d (list_ascii_of_string (String c ""))) as HD.
      { rewrite E, !TextProofs.ascii_in_app. tauto. }
      destruct HD as [<-|[]]. exact H. }
    clear - HI HW. cbn in HI.
    repeat (destruct HI as [<-|HI]; [specialize (HW _ (or_introl eq_refl)); discriminate|]). destruct HI. }
  split; [|split; [|split; [|split; [|split; [|reflexivity]]]]].
  - cbn. split; [tauto|]. split; [reflexivity|]. exists "", "". split; [reflexivity|]. split; [intros c []|].
    split; intros c r E; [injection E as <- _; reflexivity|].
    do 6 (destruct r as [|? r]; [try discriminate E; injection E; intros; subst; reflexivity|cbn in E; injection E as _ E]). destruct r; discriminate.
  - cbn. exists (-32768)%Z, 32767%Z. split; [tauto|lia].
  - split; [cbn; tauto|]. repeat constructor; try discriminate; try (apply W; reflexivity).
  - cbn. split; [apply G; reflexivity|]. split; [|reflexivity].
    intros H. cbn in H. repeat (destruct H as [H|H]; [discriminate|]). destruct H.
  - split; discriminate.
Qed.

(** The writer leaves a namespace scope open for every value (see C52). *)
Theorem C52_any_simple_refuted : forall (Num : Type) (num_print : bytes -> Num -> bytes) v n h fuel, 4 <= fuel ->
  exists evs h', ser_run (aser_next num_print) fuel (ABegin n v) h = SRDone evs h' /\ h_level h' = S (h_level h).
Proof.
  intros Num num_print v n h fuel HF. rewrite any_written by exact HF. do 2 eexists. split; [reflexivity|apply any_tag_level].
Qed.
Print Assumptions C52_any_simple_refuted.

(** C54.  Full statement: the representation of a value is the one of the XML
    Schema type named by its xsi:type attribute, and all lexical forms of that
    type are accepted.  It is false: the namespace of the type is ignored, an
    attribute [type] without namespace counts as xsi:type, and the boolean [1] is
    rejected. *)
Theorem C54_namespace_refuted :
  driver_run any_reader plain_blank driver_new
    [EStart "v" (xsi_decls ++ [("xmlns:my", "urn:my"); ("xsi:type", "my:byte")]); EText "1"; EEnd "v"] =
  RDone (VInt "byte" 1) [].
Proof. vm_compute. reflexivity. Qed.
Print Assumptions C54_namespace_refuted.

Theorem C54_attribute_refuted :
  driver_run any_reader plain_blank driver_new [EStart "v" [("type", "byte")]; EText "1"; EEnd "v"] =
  RDone (VInt "byte" 1) [].
Proof. vm_compute. reflexivity. Qed.
Print Assumptions C54_attribute_refuted.

Theorem C54_boolean_refuted :
  driver_run any_reader plain_blank driver_new
    [EStart "v" (xsi_decls ++ [("xsi:type", "xs:boolean")]); EText "1"; EEnd "v"] = RErr (KInvalidData "1").
Proof. vm_compute. reflexivity. Qed.
Print Assumptions C54_boolean_refuted.

(** The local name of the type decides: built-in names give their own
    representation or an error, all others keep type, text and the namespaces in
    scope. *)
Theorem C54_dispatch_partial : forall (Num : Type) (num_parse : bytes -> bytes -> option Num) h raw s v h',
  finish_any num_parse h (Some raw) s = Ok (v, h') ->
  let x := q_local (qname_from_bytes raw) in
  match v with
  | VUnknown t c m => ~ built_in x /\ t = Some (qname_in (d_res h) raw) /\ c = s /\ m = fst (namespaces h)
  | v => asv_local v = Some x /\ built_in x
  end.
Proof. exact (@finish_class). Qed.
Print Assumptions C54_dispatch_partial.

Theorem C54_errors : forall (Num : Type) (num_parse : bytes -> bytes -> option Num) h ty s k,
  finish_any num_parse h ty s = Err k -> k = KInvalidData s.
Proof. exact (@finish_err). Qed.
Print Assumptions C54_errors.

Theorem C54_integer_range : forall lo hi s z, parse_int lo hi s = Some z -> (lo <= z <= hi)%Z.
Proof. exact parse_int_range. Qed.
Print Assumptions C54_integer_range.

Example C54_cases :
  parse_int (-128) 127 "+127" = Some 127%Z /\ parse_int (-128) 127 "128" = None /\ parse_int 0 255 "-0" = None /\
  exists q, driver_run any_reader plain_blank driver_new
    [EStart "v" (xsi_decls ++ [("xsi:type", "xs:other")]); EText "1"; EEnd "v"] =
    RDone (VUnknown (Some q) "1" [("xs", XS_NS); ("xsi", XSI_NS)]) [] /\ q_ns q = Some XS_NS.
Proof. repeat split. eexists. split; vm_compute; reflexivity. Qed.

(** C18.  Full statement: reading a simple value never panics.  It is false: every
    hexBinary text with an odd number of digits panics. *)
Theorem C18_hex_refuted : forall s b c, hex_text s b -> nat_of_ascii c < 128 -> any_hex_read (s ++ String c "") = Panic.
Proof. exact hex_odd_panics. Qed.
Print Assumptions C18_hex_refuted.

Theorem C18_document_refuted :
  driver_run any_reader plain_blank driver_new
    [EStart "v" (xsi_decls ++ [("xsi:type", "xs:hexBinary")]); EText "ABC"; EEnd "v"] = RPanic.
Proof. vm_compute. reflexivity. Qed.
Print Assumptions C18_document_refuted.

(** Nothing else in the document can make the reader panic: it takes a type with
    local name hexBinary and a text that is not ASCII or of odd length. *)
Theorem C18_any_partial : forall (Num : Type) (num_parse : bytes -> bytes -> option Num) charref tb evs v,
  driver_run (any_deser num_parse charref utf8_valid) tb v evs = RPanic ->
  exists raw s, q_local (qname_from_bytes raw) = "hexBinary" /\ any_hex_read s = Panic /\
    (all_ascii s = false \/ Nat.even (String.length s) = false).
Proof.
  intros Num num_parse charref tb evs v H. apply any_panic in H as (raw & s & H1 & H2). exists raw, s.
  split; [exact H1|]. split; [exact H2|]. exact (hex_panic s H2).
Qed.
Print Assumptions C18_any_partial.

(** Lists and arrays of values whose own reader does not panic do not panic. *)
Theorem C18_lists : forall (T : Type) (parse : dhelper -> bytes -> outcome kind (T * dhelper)),
  (forall h b, parse h b <> Panic) ->
  forall h s, deserialize_list parse h s <> Panic /\ forall N, deserialize_arr parse N h s <> Panic.
Proof. intros T parse H h s. split; [apply list_no_panic, H|intros N; apply arr_no_panic, H]. Qed.
Print Assumptions C18_lists.
