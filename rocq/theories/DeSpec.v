(** Independent specification of open elements and of namespace scoping. *)
From Verif Require Import DeModel.
Local Open Scope string_scope.

(** Number of end tags in [evs] that close an element opened before [evs]. *)
Fixpoint extra_ends (evs : list event) : nat :=
  match evs with
  | [] => 0
  | EStart _ _ :: evs' => pred (extra_ends evs')
  | EEnd _ :: evs' => S (extra_ends evs')
  | _ :: evs' => extra_ends evs'
  end.

(** The elements opened in [evs] and not closed in [evs], outermost first. *)
Fixpoint open_elements (evs : list event) : list (bytes * list attr) :=
  match evs with
  | [] => []
  | EStart n a :: evs' =>
      match extra_ends evs' with
      | 0 => (n, a) :: open_elements evs'
      | S _ => open_elements evs'
      end
  | _ :: evs' => open_elements evs'
  end.

(** The elements that contain the last event: the open ones, the element a
    start or empty tag belongs to, and the element an end tag closes. *)
Definition enclosing (evs : list event) : list (bytes * list attr) :=
  match rev evs with
  | [] => []
  | e :: before =>
      (open_elements (rev before) ++
       match e with
       | EStart n a | EEmpty n a => [(n, a)]
       | _ => []
       end)%list
  end.

(** Every prefix closes only elements it has opened. *)
Definition well_nested (evs : list event) : Prop :=
  forall pre post, evs = (pre ++ post)%list -> extra_ends pre = 0.

(** Balanced content: closes everything it opens. *)
Definition balanced_content (evs : list event) : Prop :=
  well_nested evs /\ open_elements evs = [] /\ ~ In EEof evs.

(** Namespace declarations of one tag, last one first; the reserved prefix [xml]
    is predefined and not reported. *)
Definition tag_decls (attrs : list attr) : list (option bytes * bytes) :=
  rev (flat_map (fun a => match xmlns_decl (fst a) with
                          | Some p => if opt_eqb p (Some "xml") then [] else [(filter_prefix p, snd a)]
                          | None => []
                          end) attrs).

Fixpoint lookup_decl (p : option bytes) (l : list (option bytes * bytes)) : option bytes :=
  match l with
  | [] => None
  | (q, v) :: l' => if opt_eqb q p then Some v else lookup_decl p l'
  end.

(** The namespace a prefix is bound to inside the given elements (outermost
    first): the innermost declaration wins; an empty value removes the binding. *)
Fixpoint in_scope (p : option bytes) (els : list (bytes * list attr)) : option bytes :=
  match els with
  | [] => None
  | (_, a) :: els' =>
      match in_scope p els' with
      | Some ns => Some ns
      | None => lookup_decl p (tag_decls a)
      end
  end.

Definition bound (p : option bytes) (ns : bytes) (els : list (bytes * list attr)) : Prop :=
  in_scope p els = Some ns /\ ns <> "".

(** The events of a history of helper operations. *)
Definition events_of (ops : list dop) : list event :=
  flat_map (fun o => match o with DEvent e => [e] | DAsk => [] end) ops.

(** Key of a prefix in a [Namespaces] map. *)
Definition map_key (p : option bytes) : bytes :=
  match p with Some p => p | None => "" end.

(** A deserializer leaves the helper alone except for asking it for the
    namespaces (the only state changing method open to it). *)
Definition helper_ok (h h' : dhelper) : Prop := h' = h \/ h' = snd (namespaces h).
Definition respects {T D} (des : deser T D) : Prop :=
  (forall h e o h', de_init des h e = Ok (o, h') -> helper_ok h h') /\
  (forall d h e o h', de_next des d h e = Ok (o, h') -> helper_ok h h') /\
  (forall d h t h', de_finish des d h = Ok (t, h') -> helper_ok h h').

(** The event a deserializer hands back is the one it was given. *)
Definition gives_back {T D} (des : deser T D) : Prop :=
  (forall h e o h' e', de_init des h e = Ok (o, h') -> into_event (o_ev o) = Some e' -> e' = e) /\
  (forall d h e o h' e', de_next des d h e = Ok (o, h') -> into_event (o_ev o) = Some e' -> e' = e).

(** Tags and CDATA sections. *)
Definition solid (e : event) : Prop :=
  match e with EStart _ _ | EEmpty _ _ | EEnd _ | ECData _ => True | _ => False end.
