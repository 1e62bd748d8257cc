(** What the serde names of fields have to tell apart. *)
From Verif Require Export BoxModel SerdeNameModel.
From Coq Require Import List String Ascii.
Import ListNotations.
Local Open Scope string_scope.

(** A name as XML allows it: it is not empty and has no colon and none of the characters the
    libraries use for their own names. *)
Definition xml_name (s : string) : Prop :=
  s <> "" /\ forall c, In c (list_ascii_of_string s) -> c <> ":"%char /\ c <> "@"%char /\ c <> "#"%char /\ c <> "$"%char.

(** Namespaces in XML: an attribute or element is known by its namespace, if it is qualified,
    and its local name. *)
Definition expanded (t : tag) : option nat * string := (if tg_qualified t then Some (tg_ns t) else None, tg_name t).

(** The attributes and elements of a complex type that may occur. *)
Definition attributes_of (c : complex_meta) : list tag :=
  map am_tag (filter (fun a => negb (am_prohibited a)) (cm_attributes c)).
Definition particles_of (c : complex_meta) : list particle :=
  match cm_body c with
  | BSimple _ _ _ => []
  | BGroup _ _ _ l | BChoice _ _ _ l =>
    map em_particle (filter (fun e => match em_max e with Bounded 0 => negb (Nat.eqb (em_min e) 0) | _ => true end) l)
  end.
Definition elements_of (c : complex_meta) : list tag :=
  flat_map (fun p => match p with PElement t => [t] | PText => [] end) (particles_of c).
Definition texts_of (c : complex_meta) : nat := List.length (filter (fun p => match p with PText => true | _ => false end) (particles_of c)).
Definition mixed_of (c : complex_meta) : bool :=
  match cm_body c with BSimple _ _ _ => false | BGroup m _ _ _ | BChoice m _ _ _ => m end.

(** A type as a schema can declare it: the names are names, no attribute and no element is there
    twice, and there is at most one text. *)
Definition declared (c : complex_meta) : Prop :=
  (forall t, In t (attributes_of c) \/ In t (elements_of c) -> xml_name (tg_name t)) /\
  NoDup (map expanded (attributes_of c)) /\ NoDup (map expanded (elements_of c)) /\
  texts_of c + (if mixed_of c then 1 else 0) <= 1.

(** Each namespace has a prefix of its own. *)
Definition own_prefixes (prefix_of : nat -> option string) (l : list tag) : Prop :=
  (forall t, In t l -> tg_qualified t = true -> exists p, prefix_of (tg_ns t) = Some p /\ xml_name p) /\
  (forall t u, In t l -> In u l -> prefix_of (tg_ns t) <> None -> prefix_of (tg_ns t) = prefix_of (tg_ns u) -> tg_ns t = tg_ns u).

(** Every field is the one that is found under its name. *)
Definition all_found (types : list (list (field * string))) : Prop :=
  forall l i f n, In l types -> nth_error l i = Some (f, n) ->
    serde_finds l n = Some f /\ forall j g, nth_error l j = Some (g, n) -> j = i.
