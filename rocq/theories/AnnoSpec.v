(** What is expected of documentation. *)
From Verif Require Import Base FacetModel SerHelperModel ElementModel ElementSpec AnnoModel.

(** The content of an element. *)
Definition content_of (t : xtree) : list event :=
  match t with XElem _ _ kids => flat_map flatten kids | _ => [] end.

(** There is an element without content in the tree. *)
Fixpoint has_empty (t : xtree) : bool :=
  match t with
  | XLeaf _ => false
  | XEmpty _ _ => true
  | XElem _ _ kids => existsb has_empty kids
  end.
Definition empty_inside (t : xtree) : bool :=
  match t with XElem _ _ kids => existsb has_empty kids | _ => false end.

(** The tree that stands for a value in a document. *)
Definition stands_for (utf8_ok : bytes -> bool) (e : element) (t : xtree) : Prop :=
  proper t = true /\ root_name t <> None /\
  exists N, forall fuel, N < fuel -> element_ser_run utf8_ok fuel None e helper_default = SRDone (flatten t) helper_default.

(** The documentation of a list of trees: the content of each one that has content. *)
Definition docs_of (write_event : event -> str) (unindent : str -> str) (ts : list xtree) : list str :=
  flat_map (fun t => match flat_map write_event (content_of t) with
                     | [] => []
                     | text => [str_trim_end (unindent text)]
                     end) ts.

(** A text and its lines. *)
Fixpoint join_lines (l : list str) : str :=
  match l with
  | [] => []
  | [x] => x
  | x :: l' => x ++ 10%N :: join_lines l'
  end.
Definition lines_of (s : str) (l : list str) : Prop :=
  l <> [] /\ join_lines l = s /\ forall x, In x l -> ~ In 10%N x.

(** A text without the white space at its end. *)
Definition without_end (s x : str) : Prop :=
  (exists w, s = x ++ w /\ forall c, In c w -> unicode_ws c = true) /\
  forall y c, x = y ++ [c] -> unicode_ws c = false.

(** There is an element without values in an element, or it is one. *)
Fixpoint childless (e : element) : bool :=
  let 'Element _ _ _ vs := e in
  match vs with
  | [] => true
  | _ => existsb (fun v => match v with VElem x => childless x | _ => false end) vs
  end.
Definition childless_inside (e : element) : bool :=
  existsb (fun v => match v with VElem x => childless x | _ => false end) (el_values e).
