(** Reading content models: which child elements a type allows, in which order and how
    often, and what it means that a deserializer reads them.  Independent of how the
    generated state machines work. *)
From Verif Require Import GenModel TextSpec.
Local Open Scope list_scope.

(** ** Names of elements *)

(** The namespace (none: any) and the local name of an element declaration. *)
Definition label : Type := (option bytes * bytes)%type.
Definition labels : Type := label -> Prop.
Definition no_labels : labels := fun _ => False.
Definition one_label (l : label) : labels := fun x => x = l.

(** The tag is one of the given elements. *)
Definition fits (h : dhelper) (e : event) (ls : labels) : Prop :=
  exists l, ls l /\ check_tag h e (fst l) (snd l) = true.

Section Reading.
  (** Whether a text is blank (deserialize.rs 1321). *)
  Variable blank : bytes -> option bool.

  (** Events between elements that mean nothing: comments, processing instructions,
      blank text and the like, which the reader's loop drops. *)
  Definition ignorable (e : event) : Prop := unconsumed blank None false (Some e) = Ok None.

  Inductive spaces : dhelper -> list event -> dhelper -> Prop :=
  | spaces_nil h : spaces h [] h
  | spaces_cons h e h1 evs h2 :
      ignorable e -> dh_event h e = Some h1 -> spaces h1 evs h2 -> spaces h (e :: evs) h2.

  (** The event was used up or is one the reader's loop drops. *)
  Definition consumed (ev : devent) : Prop :=
    match into_event ev with None => True | Some e => ignorable e end.

  Section Feeding.
    Context {V D : Type}.
    Variable des : deser V D.

    (** The running deserializer [d] is given the events one by one, as the reader's loop
        does, uses up each of them, and has become [art] after the last one. *)
    Inductive feeds : D -> dhelper -> list event -> artifact V D -> dhelper -> Prop :=
    | feeds_last d h e h1 art ev any h2 :
        dh_event h e = Some h1 -> de_next des d h1 e = Ok (DOut art ev any, h2) ->
        consumed ev -> art <> ANone -> feeds d h [e] art h2
    | feeds_step d h e h1 d' ev any h2 evs art h3 :
        dh_event h e = Some h1 -> de_next des d h1 e = Ok (DOut (ADes d') ev any, h2) ->
        consumed ev -> feeds d' h2 evs art h3 -> feeds d h (e :: evs) art h3.

    (** The same for a deserializer that starts with the first event. *)
    Variable start : dhelper -> event -> dresult V D.
    Inductive begins : dhelper -> list event -> artifact V D -> dhelper -> Prop :=
    | begins_one h e h1 art ev any h2 :
        dh_event h e = Some h1 -> start h1 e = Ok (DOut art ev any, h2) ->
        consumed ev -> art <> ANone -> begins h [e] art h2
    | begins_more h e h1 d ev any h2 evs art h3 :
        dh_event h e = Some h1 -> start h1 e = Ok (DOut (ADes d) ev any, h2) ->
        consumed ev -> feeds d h2 evs art h3 -> begins h (e :: evs) art h3.
  End Feeding.

  (** The deserializer of an element type reads exactly these events, from the start tag
      to the end tag, as this value. *)
  Definition reads_element {V D} (des : deser V D) (h : dhelper) (evs : list event) (v : V)
      (h' : dhelper) : Prop :=
    begins des (de_init des) h evs (AData v) h'.

  (** ** Content models *)

  (** One occurrence of a particle (an element or a group): the elements it may begin
      with, and which events are one occurrence: [l_occ l h evs v more h'] says that the
      events, which are not empty, are an occurrence with the value [v], and that it
      could be continued by the elements [more]. *)
  Record lang (V : Type) := Lang {
    l_first : labels;
    l_occ : dhelper -> list event -> V -> labels -> dhelper -> Prop
  }.
  Arguments Lang {V} _ _.
  Arguments l_first {V} _ _.
  Arguments l_occ {V} _ _ _ _ _ _.

  (** An element with a name. *)
  Definition element_lang {V} (l : label)
      (reads : dhelper -> list event -> V -> dhelper -> Prop) : lang V :=
    Lang (one_label l)
      (fun h evs v more h' =>
         (exists e rest h1, evs = e :: rest /\ dh_event h e = Some h1 /\ fits h1 e (one_label l)) /\
         more = no_labels /\ reads h evs v h').

  (** A particle with its bounds; the value of an empty occurrence, if it may be empty. *)
  Record slot (V : Type) := Slot {
    s_lang : lang V;
    s_min : nat;
    s_max : max_occurs;
    s_default : option V
  }.
  Arguments Slot {V} _ _ _ _.
  Arguments s_lang {V} _.
  Arguments s_min {V} _.
  Arguments s_max {V} _.
  Arguments s_default {V} _.

  Section Models.
    Context {V : Type}.
    Implicit Types s : slot V.

    Definition room s (n : nat) : Prop :=
      match s_max s with Bounded max => n < max | Unbounded => True end.
    (** So many occurrences are enough. *)
    Definition enough s (n : nat) : Prop := s_min s <= n \/ s_default s <> None.

    (** The values of the occurrences, and what they become: missing ones are empty ones. *)
    Definition settled s (got vals : list V) : Prop :=
      (s_min s <= length got /\ vals = got) \/
      (exists v, s_default s = Some v /\ vals = got ++ repeat v (s_min s - length got)).

    (** A place in a sequence: the particle reached, the values of all particles so far,
        and the elements that could continue the last occurrence. *)
    Definition place : Type := (nat * list (list V) * labels)%type.

    Fixpoint add_value (i : nat) (v : V) (got : list (list V)) : list (list V) :=
      match i, got with
      | 0, g :: got' => (g ++ [v]) :: got'
      | S i', g :: got' => g :: add_value i' v got'
      | _, [] => []
      end.

    (** In this place the next element [e] can only begin an occurrence of the particle
        number [j]: it does not continue the last occurrence; the particles before [j] are
        satisfied and [e] is not one of the elements they could still begin with.  This is
        the unique particle attribution rule of XML Schema, for this place. *)
    Definition only_next (ss : list (slot V)) (h : dhelper) (e : event) (p : place) (j : nat) : Prop :=
      match p with
      | (i, got, more) =>
          ~ fits h e more /\
          exists s, nth_error ss i = Some s /\
          ((j = i /\ room s (length (nth i got []))) \/
           (i < j /\ enough s (length (nth i got [])) /\
            (room s (length (nth i got [])) -> ~ fits h e (l_first (s_lang s))) /\
            (forall k t, i < k < j -> nth_error ss k = Some t ->
              enough t 0 /\ ~ fits h e (l_first (s_lang t)))))
      end.

    (** The events are occurrences of the particles, in order, with ignorable events
        between them. *)
    Inductive follows (ss : list (slot V)) : place -> dhelper -> list event -> place -> dhelper -> Prop :=
    | follows_stop p h : follows ss p h [] p h
    | follows_space p h e h1 evs p' h2 :
        ignorable e -> dh_event h e = Some h1 ->
        follows ss p h1 evs p' h2 -> follows ss p h (e :: evs) p' h2
    | follows_item i got more h evs j s v more' h1 rest p' h2 :
        nth_error ss j = Some s -> l_occ (s_lang s) h evs v more' h1 ->
        (forall e evs' h0, evs = e :: evs' -> dh_event h e = Some h0 ->
          only_next ss h0 e (i, got, more) j) ->
        follows ss (j, add_value j v got, more') h1 rest p' h2 ->
        follows ss (i, got, more) h (evs ++ rest) p' h2.

    Definition first_place (ss : list (slot V)) : place := (0, map (fun _ => []) ss, no_labels).

    (** All particles are satisfied, and these are the values. *)
    Definition settled_at (ss : list (slot V)) (p : place) (vals : list (list V)) : Prop :=
      match p with
      | (i, got, _) =>
          length got = length ss /\ length vals = length ss /\
          forall k s, nth_error ss k = Some s -> settled s (nth k got []) (nth k vals [])
      end.

    (** The elements with which the sequence could still go on. *)
    Definition still_next (ss : list (slot V)) (p : place) : labels :=
      match p with
      | (i, got, more) =>
          fun l => more l \/
            (exists s, nth_error ss i = Some s /\ room s (length (nth i got [])) /\ l_first (s_lang s) l) \/
            (exists k s, i < k /\ nth_error ss k = Some s /\ l_first (s_lang s) l)
      end.

    Definition first_of (ss : list (slot V)) : labels :=
      fun l => exists s, In s ss /\ l_first (s_lang s) l.

    Definition begins_with_tag (evs : list event) : Prop :=
      exists e rest, evs = e :: rest /\ is_tag e = true.

    (** Ignorable events at the end are not counted as part of an occurrence. *)
    Definition ends_with_tag (evs : list event) : Prop :=
      exists evs0 e, evs = evs0 ++ [e] /\ (is_tag e || is_end e) = true.

    (** A sequence. *)
    Definition sequence_lang {A : Type} (a : A) (ss : list (slot V)) : lang (A * list (list V)) :=
      Lang (first_of ss)
        (fun h evs v more h' =>
           begins_with_tag evs /\
           exists p, follows ss (first_place ss) h evs p h' /\ more = still_next ss p /\
             fst v = a /\ settled_at ss p (snd v)).

    (** The content of one particle alone: its occurrences. *)
    Definition repeated (s : slot V) (h : dhelper) (evs : list event) (vals : list V)
        (more : labels) (h' : dhelper) : Prop :=
      exists p, follows [s] (first_place [s]) h evs p h' /\ more = still_next [s] p /\
        settled_at [s] p [vals].

    (** A choice: one of the particles; the first element belongs to no other one. *)
    Definition choice_lang (ss : list (slot V)) : lang (nat * list V) :=
      Lang (first_of ss)
        (fun h evs v more h' =>
           begins_with_tag evs /\ ends_with_tag evs /\
           exists s, nth_error ss (fst v) = Some s /\ repeated s h evs (snd v) more h' /\
             forall e rest h1 k t, evs = e :: rest -> dh_event h e = Some h1 ->
               nth_error ss k = Some t -> k <> fst v -> ~ fits h1 e (l_first (s_lang t))).

    (** The content of an element whose type is a choice; the empty content is the first
        particle without occurrences, if it may be empty. *)
    Definition choice_content (may_be_empty : bool) (ss : list (slot V))
        (h : dhelper) (evs : list event) (v : nat * list V) (h' : dhelper) : Prop :=
      (exists s more, nth_error ss (fst v) = Some s /\ repeated s h evs (snd v) more h' /\
         (exists e, In e evs /\ is_tag e = true) /\
         forall sp e rest h1 h2 k t, evs = sp ++ e :: rest -> spaces h sp h1 -> is_tag e = true ->
           dh_event h1 e = Some h2 ->
           nth_error ss k = Some t -> k <> fst v -> ~ fits h2 e (l_first (s_lang t))) \/
      (may_be_empty = true /\ spaces h evs h' /\ fst v = 0 /\
       exists s, hd_error ss = Some s /\ settled s [] (snd v)).

    (** Particles in any order ([xs:all]): the first element of an occurrence belongs to no
        other particle and does not continue the occurrence before it. *)
    Inductive scattered (ss : list (slot V)) : place -> dhelper -> list event -> place -> dhelper -> Prop :=
    | scattered_stop p h : scattered ss p h [] p h
    | scattered_space p h e h1 evs p' h2 :
        ignorable e -> dh_event h e = Some h1 ->
        scattered ss p h1 evs p' h2 -> scattered ss p h (e :: evs) p' h2
    | scattered_item i got more h evs j s v more' h1 rest p' h2 :
        nth_error ss j = Some s -> l_occ (s_lang s) h evs v more' h1 ->
        room s (length (nth j got [])) ->
        (forall e evs' h0, evs = e :: evs' -> dh_event h e = Some h0 ->
          ~ fits h0 e more /\
          forall k t, nth_error ss k = Some t -> k <> j -> ~ fits h0 e (l_first (s_lang t))) ->
        scattered ss (j, add_value j v got, more') h1 rest p' h2 ->
        scattered ss (i, got, more) h (evs ++ rest) p' h2.

    (** The elements that cannot follow: those of the particles, even if there is no more
        room for them, and those that could continue the last occurrence. *)
    Definition all_next_labels (ss : list (slot V)) (p : place) : labels :=
      fun l => (match p with (_, _, more) => more l end) \/ first_of ss l.

    Definition all_lang {A : Type} (a : A) (ss : list (slot V)) : lang (A * list (list V)) :=
      Lang (first_of ss)
        (fun h evs v more h' =>
           begins_with_tag evs /\
           exists p, scattered ss (first_place ss) h evs p h' /\ more = all_next_labels ss p /\
             fst v = a /\ settled_at ss p (snd v)).

    (** The content of a type that is another particle. *)
    Definition content_lang {A : Type} (a : A) (s : slot V) : lang (A * list V) :=
      Lang (l_first (s_lang s))
        (fun h evs v more h' =>
           begins_with_tag evs /\ ends_with_tag evs /\ fst v = a /\ repeated s h evs (snd v) more h').
  End Models.

  (** An element from its start tag to its end tag, or an empty element; its attributes are
      [a] and what is between the tags has the value [v]. *)
  Definition element_of {A W} (attrs_of : dhelper -> bytes -> list attr -> outcome kind (A * dhelper))
      (content : A -> dhelper -> list event -> W -> dhelper -> Prop)
      (h : dhelper) (evs : list event) (v : W) (h' : dhelper) : Prop :=
    (exists n attrs h0 a h1 body n' h2,
       evs = EStart n attrs :: body ++ [EEnd n'] /\ dh_event h (EStart n attrs) = Some h0 /\
       attrs_of h0 n attrs = Ok (a, h1) /\ content a h1 body v h2 /\
       dh_event h2 (EEnd n') = Some h') \/
    (exists n attrs h0 a h1,
       evs = [EEmpty n attrs] /\ dh_event h (EEmpty n attrs) = Some h0 /\
       attrs_of h0 n attrs = Ok (a, h1) /\ content a h1 [] v h').

  (** An element with a text: its attributes are [a]; its text, without white space at
      both ends, is the lexical form of [t]. *)
  Definition text_of {A T} (charref : bytes -> option bytes)  (utf8_ok : bytes -> bool)
      (attrs_of : dhelper -> bytes -> list attr -> outcome kind (A * dhelper))
      (parse : dhelper -> bytes -> outcome kind (T * dhelper))
      (h : dhelper) (evs : list event) (v : A * T) (h' : dhelper) : Prop :=
    (exists n attrs h0 h1 body n' s t,
       evs = EStart n attrs :: body ++ [EEnd n'] /\ dh_event h (EStart n attrs) = Some h0 /\
       attrs_of h0 n attrs = Ok (fst v, h1) /\
       forallb flat body = true /\ chars charref utf8_ok body = Some s /\ trimmed_of s t /\
       parse (at_end h1) t = Ok (snd v, h')) \/
    (exists n attrs h0 h1,
       evs = [EEmpty n attrs] /\ dh_event h (EEmpty n attrs) = Some h0 /\
       attrs_of h0 n attrs = Ok (fst v, h1) /\ parse h1 ""%string = Ok (snd v, h')).

  (** ** What a deserializer has to do with a particle *)
  Section Contract.
    Context {V D : Type}.
    Variable des : deser V D.

    (** A running deserializer that has read a whole occurrence with the value [v].
        It gives the value when asked to finish, at the end tag of the parent, and at every
        tag that does not continue the occurrence, and it hands that tag back. *)
    Definition done_with (v : V) (more : labels) (st : D) : Prop :=
      exists inv : D -> Prop, inv st /\ forall d, inv d ->
        (forall h, de_finish des d h = Ok (v, h)) /\
        (forall h n, exists any,
          de_next des d h (EEnd n) = Ok (DOut (AData v) (DContinue (EEnd n)) any, h)) /\
        (forall h e, is_tag e = true -> ~ fits h e more ->
          exists art any, de_next des d h e = Ok (DOut art (DContinue e) any, h) /\
            (art = AData v \/ exists d', art = ADes d' /\ forall h, de_finish des d' h = Ok (v, h))) /\
        (forall h e, ignorable e ->
          exists d' ev any, de_next des d h e = Ok (DOut (ADes d') ev any, h) /\ consumed ev /\ inv d').

    Definition complete (v : V) (more : labels) (art : artifact V D) : Prop :=
      art = AData v \/ exists d, art = ADes d /\ done_with v more d.

    (** It reads every occurrence of the particle, and leaves alone every other tag. *)
    Definition implements (start : dhelper -> event -> dresult V D) (l : lang V) : Prop :=
      (forall h evs v more h', l_occ l h evs v more h' ->
        begins_with_tag evs /\
        (forall e rest h1, evs = e :: rest -> dh_event h e = Some h1 -> fits h1 e (l_first l)) /\
        exists art, begins des start h evs art h' /\ complete v more art) /\
      (forall h e, is_tag e = true -> ~ fits h e (l_first l) ->
        exists any, start h e = Ok (DOut ANone (DContinue e) any, h)).

    (** It leaves ignorable events alone, too. *)
    Definition ignores (start : dhelper -> event -> dresult V D) : Prop :=
      forall h e, ignorable e ->
        exists ev any, start h e = Ok (DOut ANone ev any, h) /\ consumed ev.
  End Contract.

  (** The elements of a generated type and the particles they stand for. *)
  Definition member_start {V D} (m : member V D) (any : bool) : dhelper -> event -> dresult V D :=
    match m_kind m with
    | KindElement => init_start_tag m any
    | _ => de_init (m_deser m)
    end.

  Definition member_ok {V D} (m : member V D) (s : slot V) : Prop :=
    (match m_kind m with
     | KindElement => l_first (s_lang s) = one_label (m_ns m, m_name m)
     | KindGroup => ignores (de_init (m_deser m))
     | _ => False
     end) /\
    (forall any, implements (m_deser m) (member_start m any) (s_lang s)) /\
    (match m_max m with Bounded max => 1 <= max /\ m_min m <= max | Unbounded => True end) /\
    s_max s = m_max m /\
    s_min s = match m_occ m with OOptional => 0 | _ => m_min m end /\
    (s_min s = 0 \/
     match m_default m, s_default s with
     | Some df, Some v => forall h, df h = Ok (v, h)
     | None, None => True
     | _, _ => False
     end).

  (** The element is not a list that must have elements. *)
  Definition can_refuse {V D} (m : member V D) : Prop :=
    m_min m = 0 \/ m_default m <> None \/ m_occ m = OSingle \/ m_occ m = OOptional.
End Reading.
Arguments Lang {V} _ _.
Arguments l_first {V} _ _.
Arguments l_occ {V} _ _ _ _ _ _.
Arguments Slot {V} _ _ _ _.
Arguments s_lang {V} _.
Arguments s_min {V} _.
Arguments s_max {V} _.
Arguments s_default {V} _.
