(** [Mixed] (xsd-parser-types/src/xml/mixed.rs): a value and the text after it. *)
From Verif Require Export TextModel WrapModel.
Local Open Scope string_scope.

(** mixed.rs 17-24 [struct Mixed]. *)
Record mixed (T : Type) := Mixed { mx_value : T; mx_after : option bytes }.
Arguments Mixed {T} _ _.
Arguments mx_value {T} _.
Arguments mx_after {T} _.

Section MixedSer.
  Context {S : Type} (next : ser_next S).

  (** mixed.rs 90-112 [enum MixedSerializer]; of the value only the text is used
      after the inner serializer has been made. *)
  Inductive mxser : Type :=
  | MxInner (after : option bytes) (s : S)
  | MxTextAfter (s : iser bytes (option bytes))
  | MxDone.

  (** [IterSerializer<Option<&Text>, Text>]; [Text::serializer] (text.rs 74-86)
      cannot fail. *)
  Definition text_list_next := iser_next (fun t : bytes => Ok (Some t)) tser_next.

  (** mixed.rs 153-169: the branch for [TextAfter]. *)
  Definition mx_text (s : iser bytes (option bytes)) (h : helper) : option (outcome kind event) * mxser * helper :=
    match text_list_next s h with
    | (Some (Ok e), s', h') => (Some (Ok e), MxTextAfter s', h')
    | (Some (Err k), _, h') => (Some (Err k), MxDone, h')
    | (Some Panic, _, h') => (Some Panic, MxDone, h')
    | (None, _, h') => (None, MxDone, h')
    end.

  (** mixed.rs 137-173 [next]; the loop runs at most twice. *)
  Definition mxser_next (st : mxser) (h : helper) : option (outcome kind event) * mxser * helper :=
    match st with
    | MxInner after s =>
        match next s h with
        | (Some (Ok e), s', h') => (Some (Ok e), MxInner after s', h')
        | (Some (Err k), _, h') => (Some (Err k), MxDone, h')
        | (Some Panic, _, h') => (Some Panic, MxDone, h')
        | (None, _, h') => mx_text (IPending (match after with Some t => [t] | None => [] end)) h'
        end
    | MxTextAfter s => mx_text s h
    | MxDone => (None, MxDone, h)
    end.
End MixedSer.
Arguments mxser : clear implicits.

Section MixedDes.
  Context {T D : Type} (des : deser T D).
  Variable charref : bytes -> option bytes.
  Variable utf8_ok : bytes -> bool.

  (** mixed.rs 178-203 [enum MixedDeserializer]. *)
  Inductive mxdes : Type :=
  | MdInit
  | MdInner (d : D)
  | MdTextAfter (value : T) (any : bool) (d : option text_state).

  (** mixed.rs 290-343: the branch for [TextAfter]. *)
  Definition md_text (value : T) (any : bool) (d : option text_state) (h : dhelper) (e : event)
    : dresult (mixed T) mxdes :=
    match (match d with
           | Some d => text_next charref utf8_ok d h e
           | None => text_next charref utf8_ok None h e
           end) with
    | Err k => Err k
    | Panic => Panic
    | Ok (o, h') =>
        Ok (DOut (match o_art o with
                  | ANone => ADes (MdTextAfter value any None)
                  | AData t => AData (Mixed value (Some t))
                  | ADes d' => ADes (MdTextAfter value any (Some d'))
                  end) (o_ev o) any, h')
    end.

  (** mixed.rs 238-349 [next]; the loop runs at most twice. *)
  Definition mixed_next (s : mxdes) (h : dhelper) (e : event) : dresult (mixed T) mxdes :=
    match s with
    | MdTextAfter value any d => md_text value any d h e
    | _ =>
        match (match s with MdInner d => de_next des d h e | _ => de_init des h e end) with
        | Err k => Err k
        | Panic => Panic
        | Ok (o, h') =>
            match o_art o with
            | ANone => Ok (DOut ANone (o_ev o) (o_any o), h')
            | ADes d => Ok (DOut (ADes (MdInner d)) (o_ev o) (o_any o), h')
            | AData v =>
                match o_ev o with
                | DContinue e' => md_text v (o_any o) None h' e'
                | ev => Ok (DOut (ADes (MdTextAfter v (o_any o) None)) ev (o_any o), h')
                end
            end
        end
    end.

  (** mixed.rs 351-376 [finish]; [unreachable!()] is [Panic]. *)
  Definition mixed_finish (s : mxdes) (h : dhelper) : outcome kind (mixed T * dhelper) :=
    match s with
    | MdInit => Panic
    | MdInner d =>
        match de_finish des d h with
        | Ok (v, h') => Ok (Mixed v None, h')
        | Err k => Err k
        | Panic => Panic
        end
    | MdTextAfter v _ None => Ok (Mixed v None, h)
    | MdTextAfter v _ (Some d) =>
        match text_finish d h with
        | Ok (t, h') => Ok (Mixed v (Some t), h')
        | Err k => Err k
        | Panic => Panic
        end
    end.

  (** mixed.rs 231-236 [init]. *)
  Definition mixed_deser : deser (mixed T) mxdes := Deser (mixed_next MdInit) mixed_next mixed_finish.
End MixedDes.
Arguments mxdes : clear implicits.
