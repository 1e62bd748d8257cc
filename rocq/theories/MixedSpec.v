(** How the code around a deserializer uses it. *)
From Verif Require Import DeModel.
Local Open Scope string_scope.

Section Use.
  Context {T D : Type} (des : deser T D).
  Definition step (st : option D) (h : dhelper) (e : event) : dresult T D :=
    match st with Some d => de_next des d h e | None => de_init des h e end.

  (** Given the events one by one, the deserializer takes them all and returns the
      value with the last one. *)
  Inductive consumes : option D -> dhelper -> list event -> T -> dhelper -> Prop :=
  | co_last st h e h1 t any h2 : dh_event h e = Some h1 -> step st h1 e = Ok (DOut (AData t) DNone any, h2) ->
      consumes st h [e] t h2
  | co_more st h e h1 d ev any h2 evs t h' : dh_event h e = Some h1 -> step st h1 e = Ok (DOut (ADes d) ev any, h2) ->
      (forall x, ev <> DContinue x) -> consumes (Some d) h2 evs t h' -> consumes st h (e :: evs) t h'.

  (** Given the events one by one, the deserializer hands the last one back; the
      value is returned then, or by the call of [finish] which follows. *)
  Inductive reads_until : option D -> dhelper -> list event -> T -> Prop :=
  | ru_data st h e h1 t any h2 : dh_event h e = Some h1 -> step st h1 e = Ok (DOut (AData t) (DContinue e) any, h2) ->
      reads_until st h [e] t
  | ru_finish st h e h1 d any h2 t h3 : dh_event h e = Some h1 -> step st h1 e = Ok (DOut (ADes d) (DContinue e) any, h2) ->
      de_finish des d h2 = Ok (t, h3) -> reads_until st h [e] t
  | ru_more st h e h1 d ev any h2 evs t : dh_event h e = Some h1 -> step st h1 e = Ok (DOut (ADes d) ev any, h2) ->
      (forall x, ev <> DContinue x) -> reads_until (Some d) h2 evs t -> reads_until st h (e :: evs) t.
End Use.

Definition is_tag (e : event) : bool := match e with EStart _ _ | EEmpty _ _ | EEnd _ => true | _ => false end.
