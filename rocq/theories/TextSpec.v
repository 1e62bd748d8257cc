(** Independent specification of character data. *)
From Verif Require Import Utf8 TextModel.
Local Open Scope string_scope.

(** The text a list of events denotes: text with its references replaced, CDATA
    as it is, references by their value; other events denote nothing.  [None] if
    some piece is malformed. *)
Section Chars.
  Variable charref : bytes -> option bytes.
  Variable utf8_ok : bytes -> bool.
  Fixpoint chars (evs : list event) : option bytes :=
    match evs with
    | [] => Some ""
    | e :: evs' =>
        match (match e with
               | EText t => if utf8_ok t then unescape charref t else None
               | ECData t => if utf8_ok t then Some t else None
               | ERef n => if utf8_ok n then unescape charref ("&" ++ n ++ ";") else None
               | _ => Some ""
               end), chars evs' with
        | Some a, Some b => Some (a ++ b)
        | _, _ => None
        end
    end.
End Chars.

(** Events that can occur inside simple content. *)
Definition flat (e : event) : bool :=
  match e with
  | EText _ | ECData _ | ERef _ | EComment _ | EPI _ | EDecl _ | EDocType _ => true
  | _ => false
  end.

(** [s] without XML/ASCII white space at either end. *)
Definition trimmed_of (s t : string) : Prop :=
  exists a b, s = a ++ t ++ b /\
    (forall c, In c (list_ascii_of_string (a ++ b)) -> ascii_ws c = true) /\
    (forall c r, t = String c r -> ascii_ws c = false) /\
    (forall c r, t = r ++ String c "" -> ascii_ws c = false).

(** Is there any character data? *)
Definition has_chars (evs : list event) : bool :=
  existsb (fun e => match e with EText _ | ECData _ | ERef _ => true | _ => false end) evs.

(** Feeding events as a caller does: the state is kept when the deserializer
    returns itself, and starts afresh when it returns nothing. *)
Fixpoint text_feed (charref : bytes -> option bytes) (s : text_state) (h : dhelper) (evs : list event) : outcome kind text_state :=
  match evs with
  | [] => Ok s
  | e :: evs' =>
      match text_next charref utf8_valid s h e with
      | Ok (o, h') =>
          match o_art o with
          | ADes s' => text_feed charref s' h' evs'
          | ANone => text_feed charref None h' evs'
          | AData _ => Panic
          end
      | Err k => Err k
      | Panic => Panic
      end
  end.

(** The helper the content of an element is parsed with. *)
Definition at_end (h : dhelper) : dhelper :=
  let h1 := dh_pop h in DHelper (d_level h1) (d_res h1) (d_cache h1) true.
