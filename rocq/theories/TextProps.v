(** Properties C11, C12 and C13: simple content and text. *)
From Verif Require Import Utf8 SerHelperModel DeModel DeSpec ElementModel TextModel TextSpec TextProofs.
Local Open Scope string_scope.

(** C11.  The value depends only on the concatenated text: it is the result of
    parsing that text, without surrounding white space, and it does not matter
    how the reader cut the text into events.  [parse] is any simple type's
    [deserialize_bytes], [at_end] the name scope at the end tag. *)
Theorem C11_content_value : forall charref (T : Type) (parse : dhelper -> bytes -> outcome kind (T * dhelper)) tb
    h n a h1 body m rest s,
  forallb flat body = true -> dh_event h (EStart n a) = Some h1 -> chars charref utf8_valid body = Some s ->
  exists t, trimmed_of s t /\
    driver_run (content_deser charref utf8_valid parse) tb (Driver h None None) (EStart n a :: body ++ EEnd m :: rest) =
      match parse (at_end h1) t with
      | Ok (v, _) => RDone v rest
      | Err k => RErr k
      | Panic => RPanic
      end.
Proof.
  intros charref T parse tb h n a h1 body m rest s HF HE HC. exists (trim_ascii s). split; [apply trim_ascii_spec|].
  pose proof (content_element charref parse tb h n a h1 body m rest HF HE) as H. rewrite HC in H. exact H.
Qed.
Print Assumptions C11_content_value.

Theorem C11_chunking : forall charref (T : Type) (parse : dhelper -> bytes -> outcome kind (T * dhelper)) tb
    h n a h1 body1 body2 m rest s,
  forallb flat body1 = true -> forallb flat body2 = true -> dh_event h (EStart n a) = Some h1 ->
  chars charref utf8_valid body1 = Some s -> chars charref utf8_valid body2 = Some s ->
  driver_run (content_deser charref utf8_valid parse) tb (Driver h None None) (EStart n a :: body1 ++ EEnd m :: rest) =
  driver_run (content_deser charref utf8_valid parse) tb (Driver h None None) (EStart n a :: body2 ++ EEnd m :: rest).
Proof.
  intros charref T parse tb h n a h1 b1 b2 m rest s F1 F2 HE C1 C2.
  pose proof (content_element charref parse tb h n a h1 b1 m rest F1 HE) as H1. rewrite C1 in H1.
  pose proof (content_element charref parse tb h n a h1 b2 m rest F2 HE) as H2. rewrite C2 in H2.
  rewrite H1, H2. reflexivity.
Qed.
Print Assumptions C11_chunking.

(** Text that does not decode or refers to an unknown entity is an error. *)
Theorem C11_malformed : forall charref (T : Type) (parse : dhelper -> bytes -> outcome kind (T * dhelper)) tb
    h n a h1 body m rest,
  forallb flat body = true -> dh_event h (EStart n a) = Some h1 -> chars charref utf8_valid body = None ->
  exists k, driver_run (content_deser charref utf8_valid parse) tb (Driver h None None)
              (EStart n a :: body ++ EEnd m :: rest) = RErr k.
Proof.
  intros charref T parse tb h n a h1 b m rest HF HE HC.
  pose proof (content_element charref parse tb h n a h1 b m rest HF HE) as H. rewrite HC in H. exact H.
Qed.
Print Assumptions C11_malformed.

(** However the reader splits raw character data at its references, the events
    denote the unescaped data. *)
Theorem C11_reader_split : forall charref raw evs, utf8_valid raw = true -> tokenise raw = Some evs ->
  chars charref utf8_valid evs = unescape charref raw.
Proof. intros charref raw evs HV HT. apply (tokenise_chars charref raw evs HV HT). Qed.
Print Assumptions C11_reader_split.

Definition no_charref : bytes -> option bytes := fun _ => None.
(** [String::deserialize_bytes] (deserialize.rs 486-507) *)
Definition parse_string (h : dhelper) (b : bytes) : outcome kind (bytes * dhelper) :=
  if utf8_valid b then Ok (b, h) else Err KUtf8.

Example C11_example :
  let b1 := [EText " a"; ERef "amp"; EText "b"; ECData "c"] in
  let b2 := [EText " a&amp;"; EComment "x"; ECData "b"; EPI "y"; EText "c"] in
  forallb flat b1 = true /\ forallb flat b2 = true /\
  dh_event dhelper_default (EStart "n" []) = Some (DHelper 1 (Resolver 1 []) [(0, None)] false) /\
  chars no_charref utf8_valid b1 = Some " a&bc" /\ chars no_charref utf8_valid b2 = Some " a&bc" /\
  driver_run (content_deser no_charref utf8_valid parse_string) (fun _ => Some true) driver_new
    (EStart "n" [] :: b1 ++ [EEnd "n"; EEof]) = RDone "a&bc" [EEof] /\
  chars no_charref utf8_valid [EText "x"; ERef "nbsp"] = None.
Proof. cbn zeta. repeat split; vm_compute; reflexivity. Qed.

(** C12.  Full statement: every simple value comes back unchanged.  It is false
    for strings with white space at either end, and a string with [>] after two
    brackets is not written at all. *)
Definition write_string (s : bytes) (h : helper) : outcome kind (option bytes) * helper := (Ok (Some s), h).

Theorem C12_content_refuted :
  (exists s evs evs' r, ser_run cser_next 5 (CBegin (Some "n") (write_string s)) helper_default = SRDone evs helper_default /\
    reread evs = Some evs' /\
    driver_run (content_deser no_charref utf8_valid parse_string) (fun _ => Some true) driver_new evs' = RDone r [] /\ r <> s) /\
  (exists s k h, ser_run cser_next 5 (CBegin (Some "n") (write_string s)) helper_default = SRErr k h /\ utf8_valid s = true).
Proof.
  split.
  - exists " x ". do 3 eexists. repeat split; [vm_compute; reflexivity..|]. discriminate.
  - exists "a]]>b". do 2 eexists. split; vm_compute; reflexivity.
Qed.
Print Assumptions C12_content_refuted.

(** Proved part: a value that is written as [data], where [data] without
    surrounding white space parses to that value, comes back, whatever
    characters [data] contains, except [>] after two brackets.  Between the two
    sides the bytes pass through quick-xml's escaping and its reader's splitting.
    Missing: types for which white space at the ends matters, and "]]>". *)
Theorem C12_content_partial : forall charref (T : Type) (parse : dhelper -> bytes -> outcome kind (T * dhelper)) tb
    (value : helper -> outcome kind (option bytes) * helper) h h' n data v,
  value h = (Ok (Some data), h') -> utf8_valid data = true -> contains_cdata_end data = false ->
  (forall hd, exists hd', parse hd (trim_ascii data) = Ok (v, hd')) ->
  exists evs evs', (forall fuel, 4 <= fuel -> ser_run cser_next fuel (CBegin (Some n) value) h = SRDone evs h') /\
    reread evs = Some evs' /\
    forall rest, driver_run (content_deser charref utf8_valid parse) tb driver_new (evs' ++ rest) = RDone v rest.
Proof. exact content_round_trip. Qed.
Print Assumptions C12_content_partial.

(** Strings: unchanged if they do not start or end with white space. *)
Theorem C12_string_partial : forall charref tb h n s,
  utf8_valid s = true -> contains_cdata_end s = false -> trimmed_of s s ->
  exists evs evs', (forall fuel, 4 <= fuel -> ser_run cser_next fuel (CBegin (Some n) (write_string s)) h = SRDone evs h) /\
    reread evs = Some evs' /\
    forall rest, driver_run (content_deser charref utf8_valid parse_string) tb driver_new (evs' ++ rest) = RDone s rest.
Proof.
  intros charref tb h n s HU HC HT. apply (content_round_trip charref parse_string tb (write_string s) h h n s s); auto.
  intros hd. rewrite (trim_ascii_id s HT). unfold parse_string. rewrite HU. eexists; reflexivity.
Qed.
Print Assumptions C12_string_partial.

(** A value without lexical form is an empty element, which parses the empty
    string. *)
Theorem C12_empty_content : forall charref (T : Type) (parse : dhelper -> bytes -> outcome kind (T * dhelper)) tb
    (value : helper -> outcome kind (option bytes) * helper) h h' n v,
  value h = (Ok None, h') -> (forall hd, exists hd', parse hd "" = Ok (v, hd')) ->
  forall fuel, 2 <= fuel -> ser_run cser_next fuel (CBegin (Some n) value) h = SRDone [EEmpty n []] h' /\
    reread [EEmpty n []] = Some [EEmpty n []] /\
    forall rest, driver_run (content_deser charref utf8_valid parse) tb driver_new (EEmpty n [] :: rest) = RDone v rest.
Proof. exact content_none_round_trip. Qed.
Print Assumptions C12_empty_content.

Example C12_example :
  let s := "a <b> & 'c' ]] d" in
  utf8_valid s = true /\ contains_cdata_end s = false /\ trimmed_of s s /\
  ser_run cser_next 5 (CBegin (Some "n") (write_string s)) helper_default =
    SRDone [EStart "n" []; EText "a &lt;b&gt; &amp; &apos;c&apos; ]] d"; EEnd "n"] helper_default.
Proof.
  cbn zeta. repeat split; try (vm_compute; reflexivity).
  pose proof (trim_ascii_spec "a <b> & 'c' ]] d") as H.
  replace (trim_ascii "a <b> & 'c' ]] d") with "a <b> & 'c' ]] d" in H by (vm_compute; reflexivity). exact H.
Qed.

(** C13.  Feeding events to the text deserializer: it keeps the concatenation of
    the character data seen so far (nothing yet if there was none), comments and
    processing instructions do not interrupt it; malformed data is an error. *)
Theorem C13_accumulates : forall charref h evs, forallb flat evs = true ->
  match chars charref utf8_valid evs with
  | Some t => text_feed charref None h evs = Ok (if has_chars evs then Some t else None)
  | None => exists k, text_feed charref None h evs = Err k
  end.
Proof.
  intros charref h evs HF. pose proof (text_feed_spec charref h evs None HF) as H.
  destruct (chars charref utf8_valid evs); exact H.
Qed.
Print Assumptions C13_accumulates.

(** At the first tag it returns what it has and hands the tag back unconsumed. *)
Theorem C13_stops_at_tag : forall charref h evs t e, forallb flat evs = true ->
  chars charref utf8_valid evs = Some t -> has_chars evs = true ->
  (match e with EStart _ _ | EEmpty _ _ | EEnd _ => true | _ => false end) = true ->
  exists s, text_feed charref None h evs = Ok s /\
    text_next charref utf8_valid s h e = Ok (DOut (AData t) (DContinue e) false, h) /\
    text_finish s h = Ok (t, h).
Proof.
  intros charref h evs t e HF HC HH HE. exists (Some t).
  pose proof (text_feed_spec charref h evs None HF) as H. rewrite HC, HH in H. split; [exact H|].
  split; [apply (text_stop charref (Some t) h e HE)|reflexivity].
Qed.
Print Assumptions C13_stops_at_tag.

(** Without character data there is no value, and the tag is still unconsumed. *)
Theorem C13_no_text : forall charref h evs e, forallb flat evs = true -> has_chars evs = false ->
  (match e with EStart _ _ | EEmpty _ _ | EEnd _ => true | _ => false end) = true ->
  text_feed charref None h evs = Ok None /\
  text_next charref utf8_valid None h e = Ok (DOut ANone (DContinue e) false, h) /\
  text_finish None h = Err KMissingContent.
Proof.
  intros charref h evs e HF HH HE. split; [|split; [apply (text_stop charref None h e HE)|reflexivity]].
  assert (HC : chars charref utf8_valid evs = Some "").
  { clear HF. induction evs as [|x evs IH]; [reflexivity|]. cbn in HH. apply orb_false_iff in HH. destruct HH as [H1 H2].
    rewrite chars_cons, (IH H2). destruct x; try discriminate; reflexivity. }
  pose proof (text_feed_spec charref h evs None HF) as H. rewrite HC, HH in H. exact H.
Qed.
Print Assumptions C13_no_text.

(** Round trip of a non-empty text through the writer and the reader. *)
Theorem C13_round_trip : forall charref hs h s e, utf8_valid s = true -> s <> "" ->
  (match e with EStart _ _ | EEmpty _ _ | EEnd _ => true | _ => false end) = true ->
  exists evs, ser_run tser_next 2 (Some s) hs = SRDone [EText (escape s)] hs /\
    reread [EText (escape s); e] = Some (evs ++ [e])%list /\
    exists st, text_feed charref None h evs = Ok st /\
      text_next charref utf8_valid st h e = Ok (DOut (AData s) (DContinue e) false, h).
Proof.
  intros charref hs h s e HU HN HE. destruct (reread_written charref s HU) as (evs & HT & HC & HCE).
  exists evs. split; [reflexivity|]. split.
  - unfold reread. destruct e; try discriminate HE; cbn [reread_from append]; rewrite HT; reflexivity.
  - exists (Some s). split.
    + assert (HF : forallb flat evs = true).
      { clear -HCE. induction evs as [|x evs IH]; [reflexivity|]. cbn in HCE |- *. apply andb_true_iff in HCE. destruct HCE as [H1 H2].
        rewrite (IH H2), andb_true_r. destruct x; try discriminate; reflexivity. }
      pose proof (text_feed_spec charref h evs None HF) as H. rewrite HC in H. rewrite H.
      destruct evs as [|x evs]; [cbn in HC; congruence|].
      cbn in HCE. destruct x; try discriminate HCE; reflexivity.
    + apply (text_stop charref (Some s) h e HE).
Qed.
Print Assumptions C13_round_trip.

Example C13_example :
  let evs := [EComment "c"; EText "x "; ERef "lt"; EPI "p"; ECData "&"] in
  forallb flat evs = true /\ chars no_charref utf8_valid evs = Some "x <&" /\ has_chars evs = true /\
  text_feed no_charref None dhelper_default evs = Ok (Some "x <&").
Proof. cbn zeta. repeat split; vm_compute; reflexivity. Qed.
