(** Character data: quick-xml's escaping and how its reader splits character data
    into events; [ContentSerializer], [ContentDeserializer]
    (xsd-parser-types/src/quick_xml/serialize.rs, deserialize.rs), [Text]
    (xsd-parser-types/src/xml/text.rs). *)
From Verif Require Export ElementModel.
Local Open Scope string_scope.
Local Open Scope char_scope.

(** ** quick-xml *)

Definition quot : ascii := "034".

(** quick_xml::escape::escape: the five predefined entities. *)
Definition escape_char (c : ascii) : string :=
  if Ascii.eqb c "<" then "&lt;"
  else if Ascii.eqb c ">" then "&gt;"
  else if Ascii.eqb c "'" then "&apos;"
  else if Ascii.eqb c "&" then "&amp;"
  else if Ascii.eqb c quot then "&quot;"
  else String c "".

Fixpoint escape (s : string) : string :=
  match s with
  | EmptyString => ""
  | String c s' => (escape_char c ++ escape s')%string
  end.

Section Entities.
  (** Resolution of a numeric character reference [&#...;]. *)
  Variable charref : bytes -> option bytes.

  (** quick_xml::escape: predefined entities and character references. *)
  Definition entity (name : bytes) : option bytes :=
    match name with
    | String "#" num => charref num
    | _ =>
        if String.eqb name "lt" then Some "<"%string
        else if String.eqb name "gt" then Some ">"%string
        else if String.eqb name "amp" then Some "&"%string
        else if String.eqb name "apos" then Some "'"%string
        else if String.eqb name "quot" then Some (String quot "")
        else None
    end.

  (** quick_xml::escape::unescape: every [&] must be followed by a [;] before the
      next [&].  With [in_ref] the result is the rest of the reference name and
      the text after it. *)
  Fixpoint un (in_ref : bool) (s : string) : option (string * string) :=
    match s with
    | EmptyString => if in_ref then None else Some (""%string, ""%string)
    | String c s' =>
        if in_ref then
          if Ascii.eqb c ";" then
            match un false s' with Some (_, out) => Some (""%string, out) | None => None end
          else if Ascii.eqb c "&" then None
          else match un true s' with Some (n, out) => Some (String c n, out) | None => None end
        else if Ascii.eqb c "&" then
          match un true s' with
          | Some (n, out) =>
              match entity n with
              | Some v => Some (""%string, (v ++ out)%string)
              | None => None
              end
          | None => None
          end
        else match un false s' with Some (_, out) => Some (""%string, String c out) | None => None end
    end.
  Definition unescape (s : string) : option string :=
    match un false s with Some (_, out) => Some out | None => None end.
End Entities.

(** quick-xml 0.38 reader on character data between two tags: text up to [&],
    then a reference up to [;], and so on; no empty text events. *)
Definition flush (t : string) (evs : list event) : list event :=
  match t with EmptyString => evs | _ => EText t :: evs end.

Fixpoint tok (in_ref : bool) (s : string) : option (string * list event) :=
  match s with
  | EmptyString => if in_ref then None else Some (""%string, [])
  | String c s' =>
      if in_ref then
        if Ascii.eqb c ";" then
          match tok false s' with Some (t, evs) => Some (""%string, flush t evs) | None => None end
        else if Ascii.eqb c "&" then None
        else match tok true s' with Some (n, evs) => Some (String c n, evs) | None => None end
      else if Ascii.eqb c "&" then
        match tok true s' with Some (n, evs) => Some (""%string, ERef n :: evs) | None => None end
      else match tok false s' with Some (t, evs) => Some (String c t, evs) | None => None end
  end.
Definition tokenise (s : string) : option (list event) :=
  match tok false s with Some (t, evs) => Some (flush t evs) | None => None end.

(** What a reader delivers for the bytes of a list of written events: adjacent
    text is one stretch of character data, which is split as above.
    Simplification: names, attributes, comments, CDATA and processing
    instructions are assumed to be written so that they read back as they are. *)
Fixpoint reread_from (text : string) (evs : list event) : option (list event) :=
  match evs with
  | [] => tokenise text
  | EText t :: evs' => reread_from (text ++ t)%string evs'
  | e :: evs' =>
      match tokenise text, reread_from "" evs' with
      | Some a, Some b => Some (a ++ e :: b)%list
      | _, _ => None
      end
  end.
Definition reread (evs : list event) : option (list event) := reread_from "" evs.

(** [u8::is_ascii_whitespace]: space, tab, LF, FF, CR. *)
Definition ascii_ws (c : ascii) : bool :=
  Ascii.eqb c " " || Ascii.eqb c "009" || Ascii.eqb c "010" || Ascii.eqb c "012" || Ascii.eqb c "013".

Fixpoint trim_start (s : string) : string :=
  match s with
  | String c s' => if ascii_ws c then trim_start s' else s
  | EmptyString => ""
  end.
Fixpoint trim_end (s : string) : string :=
  match s with
  | String c s' =>
      match trim_end s' with
      | EmptyString => if ascii_ws c then "" else String c ""
      | t => String c t
      end
  | EmptyString => ""
  end.
(** [<[u8]>::trim_ascii] *)
Definition trim_ascii (s : string) : string := trim_end (trim_start s).

(** [s.contains("]]>")] *)
Fixpoint contains_cdata_end (s : string) : bool :=
  starts_with "]]>" s ||
  match s with EmptyString => false | String _ s' => contains_cdata_end s' end.

(** ** ContentSerializer *)

(** serialize.rs 275-292 [enum ContentSerializer]; [CBegin] carries the result of
    [value.serialize_bytes(helper)], which the first call of [next] asks for. *)
Inductive cser : Type :=
| CBegin (name : option bytes) (value : helper -> outcome kind (option bytes) * helper)
| CData (name : option bytes) (data : bytes)
| CEnd (name : bytes)
| CDone.

(** serialize.rs 322-357 [next]. *)
Definition cser_data (name : option bytes) (data : bytes) (h : helper)
  : option (outcome kind event) * cser * helper :=
  let s' := match name with Some n => CEnd n | None => CDone end in
  match data with
  | EmptyString =>
      match name with
      | Some n => (Some (Ok (EEnd n)), CDone, h)
      | None => (None, CDone, h)
      end
  | _ => (Some (Ok (EText (escape data))), s', h)
  end.

Definition cser_next (s : cser) (h : helper) : option (outcome kind event) * cser * helper :=
  match s with
  | CBegin name value =>
      match value h with
      | (Ok None, h') =>
          (match name with Some n => Some (Ok (EEmpty n [])) | None => None end, CDone, h')
      | (Ok (Some data), h') =>
          if contains_cdata_end data then (Some (Err (KInvalidData data)), CDone, h')
          else match name with
               | Some n => (Some (Ok (EStart n [])), CData name data, h')
               | None => cser_data name data h'
               end
      | (Err k, h') => (Some (Err k), CDone, h')
      | (Panic, h') => (Some Panic, CDone, h')
      end
  | CData name data => cser_data name data h
  | CEnd n => (Some (Ok (EEnd n)), CDone, h)
  | CDone => (None, CDone, h)
  end.

Section CharData.
  Variable charref : bytes -> option bytes.
  (** [str::from_utf8(b).is_ok()]; also the result of [BytesText::decode]. *)
  Variable utf8_ok : bytes -> bool.

  (** deserialize.rs 610-644 and text.rs 131-145: the text of a character-data
      event; [None] for other events. *)
  Definition piece (e : event) : option (outcome kind bytes) :=
    match e with
    | EText raw =>
        Some (if utf8_ok raw then
                match unescape charref raw with Some s => Ok s | None => Err KEscape end
              else Err KEncoding)
    | ECData raw => Some (if utf8_ok raw then Ok raw else Err KEncoding)
    | ERef x =>
        Some (if utf8_ok x then
                match unescape charref ("&" ++ x ++ ";")%string with Some s => Ok s | None => Err KEscape end
              else Err KUtf8)
    | _ => None
    end.

  (** ** ContentDeserializer *)
  Section Content.
    Context {T : Type}.
    (** [T::deserialize_bytes] *)
    Variable parse : dhelper -> bytes -> outcome kind (T * dhelper).

    (** deserialize.rs 660-662 [finish]. *)
    Definition content_finish (data : bytes) (h : dhelper) : outcome kind (T * dhelper) :=
      parse h (trim_ascii data).

    (** deserialize.rs 577-603 [init]. *)
    Definition content_init (h : dhelper) (e : event) : dresult T bytes :=
      match e with
      | EStart _ _ => Ok (DOut (ADes ""%string) DNone false, h)
      | EEmpty _ _ =>
          match parse h "" with
          | Ok (t, h') => Ok (DOut (AData t) DNone false, h')
          | Err k => Err k
          | Panic => Panic
          end
      | e => Ok (DOut ANone (DContinue e) false, h)
      end.

    (** deserialize.rs 605-658 [next]. *)
    Definition content_next (data : bytes) (h : dhelper) (e : event) : dresult T bytes :=
      match piece e with
      | Some (Ok s) => Ok (DOut (ADes (data ++ s)%string) DNone false, h)
      | Some (Err k) => Err k
      | Some Panic => Panic
      | None =>
          match e with
          | EEnd _ =>
              match content_finish data h with
              | Ok (t, h') => Ok (DOut (AData t) DNone false, h')
              | Err k => Err k
              | Panic => Panic
              end
          | e => Ok (DOut (ADes data) (DBreak e) false, h)
          end
      end.

    Definition content_deser : deser T bytes := Deser content_init content_next content_finish.
  End Content.

  (** ** Text *)

  (** text.rs 113-124 [enum TextDeserializer]: [None] is [Init]. *)
  Definition text_state := option bytes.

  (** text.rs 126-190 [next]. *)
  Definition text_next (s : text_state) (h : dhelper) (e : event) : dresult bytes text_state :=
    match piece e with
    | Some (Ok t) =>
        Ok (DOut (ADes (Some (match s with Some v => v | None => ""%string end ++ t)%string)) DNone false, h)
    | Some (Err k) => Err k
    | Some Panic => Panic
    | None =>
        match e with
        | EStart _ _ | EEmpty _ _ | EEnd _ =>
            Ok (DOut (match s with Some v => AData v | None => ANone end) (DContinue e) false, h)
        | e => Ok (DOut (match s with Some v => ADes (Some v) | None => ANone end) (DBreak e) false, h)
        end
    end.

  (** text.rs 192-200 [finish]. *)
  Definition text_finish (s : text_state) (h : dhelper) : outcome kind (bytes * dhelper) :=
    match s with
    | None => Err KMissingContent
    | Some v => Ok (v, h)
    end.

  (** text.rs 127-129 [init]. *)
  Definition text_deser : deser bytes text_state := Deser (text_next None) text_next text_finish.
End CharData.

(** text.rs 88-111 [TextSerializer]: [Some] is [Emit]. *)
Definition tser_next (s : option bytes) (h : helper) : option (outcome kind event) * option bytes * helper :=
  match s with
  | Some v => (Some (Ok (EText (escape v))), None, h)
  | None => (None, None, h)
  end.
