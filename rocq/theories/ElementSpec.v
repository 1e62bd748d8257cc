(** Independent specification for [AnyElement]: well-formed event streams and
    what element a stream denotes. *)
From Verif Require Import DeModel DeSpec ElementModel.
Local Open Scope string_scope.

(** Events without structure. *)
Definition leaf (e : event) : bool :=
  match e with
  | EStart _ _ | EEmpty _ _ | EEnd _ | EEof => false
  | _ => true
  end.

(** An XML document as a tree: a leaf, an empty-element tag, or a start tag,
    content and the end tag of the same name. *)
Inductive xtree : Type :=
| XLeaf (e : event)
| XEmpty (n : bytes) (a : list attr)
| XElem (n : bytes) (a : list attr) (kids : list xtree).

(** The events a reader delivers for a tree. *)
Fixpoint flatten (t : xtree) : list event :=
  match t with
  | XLeaf e => [e]
  | XEmpty n a => [EEmpty n a]
  | XElem n a kids => EStart n a :: flat_map flatten kids ++ [EEnd n]
  end.

Definition root_name (t : xtree) : option bytes :=
  match t with XLeaf _ => None | XEmpty n _ | XElem n _ _ => Some n end.

(** Every leaf is a leaf event. *)
Fixpoint proper (t : xtree) : bool :=
  match t with
  | XLeaf e => leaf e
  | XEmpty _ _ => true
  | XElem _ _ kids => forallb proper kids
  end.


(** A declaration the XML namespace rules allow. *)
Definition legal_decl (a : attr) : Prop :=
  match xmlns_decl (fst a) with
  | None | Some None => True
  | Some (Some p) =>
      if String.eqb p "xml" then snd a = XML_NS
      else p <> "xmlns" /\ snd a <> XML_NS /\ snd a <> XMLNS_NS
  end.

(** Tags a conforming reader accepts: no attribute twice, legal declarations. *)
Definition good_tag (a : list attr) : Prop := NoDup (map fst a) /\ Forall legal_decl a.

Definition plain_leaf (e : event) : option value :=
  match e with
  | EText t => Some (VText t)
  | ECData t => Some (VCData t)
  | EComment t => Some (VComment t)
  | _ => None
  end.

(** The namespaces recorded for an element: exactly those in scope. *)
Definition scope_map (els : list (bytes * list attr)) (m : nsmap) : Prop :=
  (forall k ns, In (k, ns) m <-> bound (filter_prefix (Some k)) ns els) /\ NoDup (map fst m).

(** [denotes els t v]: the tree [t] inside the elements [els] denotes the value
    [v].  Text, CDATA, comments and elements are kept; entity and character
    references, processing instructions, declarations and doctypes denote nothing
    (this is what the code does). *)
Inductive denotes (els : list (bytes * list attr)) : xtree -> option value -> Prop :=
| dn_leaf e : denotes els (XLeaf e) (plain_leaf e)
| dn_empty n a m : scope_map (els ++ [(n, a)]) m ->
    denotes els (XEmpty n a) (Some (VElem (Element n a m [])))
| dn_elem n a m kids vs : scope_map (els ++ [(n, a)]) m ->
    denotes_all (els ++ [(n, a)]) kids vs ->
    denotes els (XElem n a kids) (Some (VElem (Element n a m vs)))
with denotes_all (els : list (bytes * list attr)) : list xtree -> list value -> Prop :=
| da_nil : denotes_all els [] []
| da_some t ts v vs : denotes els t (Some v) -> denotes_all els ts vs -> denotes_all els (t :: ts) (v :: vs)
| da_none t ts vs : denotes els t None -> denotes_all els ts vs -> denotes_all els (t :: ts) vs.

(** xmlns attributes are a matter of namespace scoping, not of content. *)
Definition is_xmlns (a : attr) : bool :=
  String.eqb (fst a) "xmlns" || starts_with "xmlns:" (fst a).

(** Equality of trees up to namespace declarations. *)
Inductive same_element : element -> element -> Prop :=
| se n a1 a2 m1 m2 v1 v2 :
    filter (fun x => negb (is_xmlns x)) a1 = filter (fun x => negb (is_xmlns x)) a2 ->
    same_values v1 v2 ->
    same_element (Element n a1 m1 v1) (Element n a2 m2 v2)
with same_values : list value -> list value -> Prop :=
| sv_nil : same_values [] []
| sv_elem x y v1 v2 : same_element x y -> same_values v1 v2 -> same_values (VElem x :: v1) (VElem y :: v2)
| sv_leaf v v1 v2 : (forall x, v <> VElem x) -> same_values v1 v2 -> same_values (v :: v1) (v :: v2).

(** What an element tree must satisfy to be writable as XML: names valid, maps
    without duplicate keys, legal declarations. *)
Fixpoint good_element (utf8_ok : bytes -> bool) (e : element) : Prop :=
  let 'Element n a m vs := e in
  utf8_ok n = true /\ NoDup (map fst a) /\ NoDup (map fst m) /\
  Forall legal_decl a /\ Forall (fun x => legal_decl (xmlns_key (filter_prefix (Some (fst x))), snd x)) m /\
  (fix go l := match l with
               | [] => True
               | VElem x :: l' => good_element utf8_ok x /\ go l'
               | _ :: l' => go l'
               end) vs.

(** ** Documents that use prefixes consistently *)

(** One-to-one prefix dictionary without empty namespaces and without the
    reserved prefix [xml]. *)
Definition dictionary (G : nsmap) : Prop :=
  NoDup (map fst G) /\ NoDup (map snd G) /\ ~ In "" (map snd G) /\ ~ In "xml" (map fst G).

(** All prefixes are used as in the dictionary; an element has at least the
    namespaces of its parent ([up]), and its xmlns attributes, if it keeps any,
    are among its namespaces. *)
Fixpoint consistent (G up : nsmap) (e : element) : Prop :=
  let 'Element _ a m vs := e in
  incl m G /\ incl up m /\
  (forall x, In x a -> is_xmlns x = true ->
     exists p ns, In (p, ns) m /\ x = (xmlns_key (filter_prefix (Some p)), ns)) /\
  (fix go l := match l with
               | [] => True
               | VElem x :: l' => consistent G m x /\ go l'
               | _ :: l' => go l'
               end) vs.

(** As [same_element], and every element has the same namespaces. *)
Inductive same_element_ns : element -> element -> Prop :=
| sen n a1 a2 m1 m2 v1 v2 :
    filter (fun x => negb (is_xmlns x)) a1 = filter (fun x => negb (is_xmlns x)) a2 ->
    (forall x, In x m1 <-> In x m2) -> NoDup (map fst m2) ->
    same_values_ns v1 v2 ->
    same_element_ns (Element n a1 m1 v1) (Element n a2 m2 v2)
with same_values_ns : list value -> list value -> Prop :=
| svn_nil : same_values_ns [] []
| svn_elem x y v1 v2 : same_element_ns x y -> same_values_ns v1 v2 -> same_values_ns (VElem x :: v1) (VElem y :: v2)
| svn_leaf v v1 v2 : (forall x, v <> VElem x) -> same_values_ns v1 v2 -> same_values_ns (v :: v1) (v :: v2).

(** The attribute lists of all tags of a tree. *)
Fixpoint tree_tags (t : xtree) : list (list attr) :=
  match t with
  | XLeaf _ => []
  | XEmpty _ a => [a]
  | XElem _ a kids => a :: flat_map tree_tags kids
  end.
