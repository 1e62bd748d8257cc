(* What it means for an element to be valid, and which values its fields should
   have, in terms of the schema only: no rendered field, key or run occurs here. *)
From Coq Require Import List String Ascii Arith Bool.
From Verif Require Import BoxModel SerdeModel.
Import ListNotations.
Local Open Scope string_scope.

Section Spec.
  Variable T V : Type.
  Variable read_text : T -> string -> option V.
  Variable read_node : T -> node -> option V.

  (* A local name of XML does not begin with one of the characters that mark the
     special keys. *)
  Definition plain_name (s : string) : Prop :=
    match s with
    | EmptyString => True
    | String c _ => c <> "@"%char /\ c <> "$"%char
    end.

  (* A number between minOccurs and maxOccurs. *)
  Definition in_bounds (min : nat) (max : max_occurs) (n : nat) : Prop :=
    min <= n /\ match max with Bounded m => n <= m | Unbounded => True end.

  (* The node is an element with the given name. *)
  Definition named (ns local : string) (n : node) : Prop :=
    match n with Element ns' local' _ _ => ns' = ns /\ local' = local | Text _ => False end.
  Definition is_named (ns local : string) (n : node) : bool :=
    match n with Element ns' local' _ _ => String.eqb ns' ns && String.eqb local' local | Text _ => false end.
  Definition has_local (local : string) (n : node) : bool :=
    match n with Element _ local' _ _ => String.eqb local' local | Text _ => false end.
  Definition node_name (n : node) : option (string * string) :=
    match n with Element ns local _ _ => Some (ns, local) | Text _ => None end.

  (* Nodes that are valid for a sequence: for each element in turn, as many as
     its bounds allow. *)
  Inductive seq_valid : list (elem_decl T) -> list node -> Prop :=
  | sv_nil : seq_valid [] []
  | sv_cons d ds xs rest :
      Forall (named (e_ns T d) (e_local T d)) xs ->
      in_bounds (e_min T d) (e_max T d) (List.length xs) ->
      seq_valid ds rest -> seq_valid (d :: ds) (xs ++ rest).

  (* Nodes that are valid for an `all`: in any order, no name twice. *)
  Definition all_valid (elems : list (elem_decl T)) (nodes : list node) : Prop :=
    NoDup (map node_name nodes) /\
    (forall n, In n nodes -> exists d, In d elems /\ named (e_ns T d) (e_local T d) n) /\
    (forall d, In d elems ->
       in_bounds (e_min T d) (e_max T d)
         (List.length (filter (is_named (e_ns T d) (e_local T d)) nodes))).

  (* The elements that may occur at all, and the attributes that may. *)
  Definition occurring (elems : list (elem_decl T)) : list (elem_decl T) :=
    filter (fun d => match e_max T d with Bounded 0 => false | _ => true end) elems.
  Definition allowed (attrs : list (attr_decl T V)) : list (attr_decl T V) :=
    filter (fun d => match a_use T V d with Prohibited => false | _ => true end) attrs.

  (* The bounds of an element are those of a schema: the minimum is not above
     the maximum. *)
  Definition bounds_ok (d : elem_decl T) : Prop :=
    match e_max T d with Bounded m => e_min T d <= m | Unbounded => True end.

  (* No attribute occurs twice; an attribute with the local name of a declared
     one is the declared one. Other attributes are allowed. *)
  Definition attrs_distinct (attrs : list (attr_decl T V)) (atts : list attribute) : Prop :=
    NoDup (map (fun a => (at_ns a, at_local a)) atts) /\
    (forall a d, In a atts -> In d (allowed attrs) ->
       a_local T V d = at_local a -> a_ns T V d = at_ns a).

  Definition is_attr (d : attr_decl T V) (a : attribute) : Prop :=
    at_ns a = a_ns T V d /\ at_local a = a_local T V d.

  (* The value of the field of an attribute. There is none if a required
     attribute is absent. *)
  Inductive attr_value (atts : list attribute) (d : attr_decl T V) : fval (val V) -> Prop :=
  | av_present a v :
      In a atts -> is_attr d a -> read_text (a_type T V d) (at_value a) = Some v ->
      (a_use T V d = Required \/ a_default T V d <> None) ->
      attr_value atts d (FOne (VNamed v))
  | av_optional a v :
      In a atts -> is_attr d a -> read_text (a_type T V d) (at_value a) = Some v ->
      at_value a <> "" -> a_use T V d = Optional -> a_default T V d = None ->
      attr_value atts d (FOpt (Some (VNamed v)))
  | av_default v :
      (forall a, In a atts -> ~ is_attr d a) -> a_default T V d = Some v ->
      attr_value atts d (FOne (VNamed v))
  | av_absent :
      (forall a, In a atts -> ~ is_attr d a) -> a_use T V d = Optional -> a_default T V d = None ->
      attr_value atts d (FOpt None).

  (* The value of the field of an element: one value, an optional one, or the
     list of all of them in the order of the document. *)
  Inductive elem_value (nodes : list node) (d : elem_decl T) : fval (val V) -> Prop :=
  | ev_one n v :
      filter (is_named (e_ns T d) (e_local T d)) nodes = [n] -> read_node (e_type T d) n = Some v ->
      e_max T d = Bounded 1 -> e_min T d = 1 -> e_emptiable T d = false ->
      elem_value nodes d (FOne (VNamed v))
  | ev_some n v :
      filter (is_named (e_ns T d) (e_local T d)) nodes = [n] -> read_node (e_type T d) n = Some v ->
      e_max T d = Bounded 1 -> (e_min T d = 0 \/ e_emptiable T d = true) ->
      elem_value nodes d (FOpt (Some (VNamed v)))
  | ev_none :
      filter (is_named (e_ns T d) (e_local T d)) nodes = [] ->
      e_max T d = Bounded 1 -> e_min T d = 0 ->
      elem_value nodes d (FOpt None)
  | ev_list vs :
      Forall2 (fun n v => read_node (e_type T d) n = Some v)
        (filter (is_named (e_ns T d) (e_local T d)) nodes) vs ->
      e_max T d <> Bounded 1 ->
      elem_value nodes d (FList (map VNamed vs)).

  (* The value of the content of a choice, from the values of its nodes. *)
  Inductive choice_value (min : nat) (max : max_occurs) (ws : list (val V)) : fval (val V) -> Prop :=
  | cv_one w : ws = [w] -> min = 1 -> max = Bounded 1 -> choice_value min max ws (FOne w)
  | cv_opt : min = 0 -> max = Bounded 1 -> choice_value min max ws (FOpt (hd_error ws))
  | cv_list : max <> Bounded 1 -> choice_value min max ws (FList ws).

  (* A node of a choice and its value: the alternative with the name of the node
     and the value of the node as the type of the alternative. *)
  Definition chosen (elems : list (elem_decl T)) (n : node) (w : val V) : Prop :=
    exists d v, In d elems /\ named (e_ns T d) (e_local T d) n /\
      read_node (e_type T d) n = Some v /\ w = VVariant (e_local T d) v.

  (* What can be said of the value of a field whenever reading succeeds: it was
     read from exactly the nodes with the local name of the element. *)
  Definition elem_back (nodes : list node) (d : elem_decl T) (f : fval (val V)) : Prop :=
    exists vs,
      Forall2 (fun n v => read_node (e_type T d) n = Some v)
        (filter (has_local (e_local T d)) nodes) vs /\
      ((f = FList (map VNamed vs) /\ (e_max T d = Bounded (e_min T d) -> List.length vs = e_min T d)) \/
       (exists v, vs = [v] /\ f = FOne (VNamed v)) \/
       (exists v, vs = [v] /\ f = FOpt (Some (VNamed v))) \/
       (vs = [] /\ f = FOpt None /\ (e_min T d = 0 \/ e_emptiable T d = true))).
End Spec.

(* Names of elements and attributes, pairwise different. *)
Definition elem_names {T} (elems : list (elem_decl T)) : list (string * string) :=
  map (fun d => (e_ns T d, e_local T d)) elems.
Definition attr_names {T V} (attrs : list (attr_decl T V)) : list (string * string) :=
  map (fun d => (a_ns T V d, a_local T V d)) attrs.

(* A concrete way to read values, for the examples and the refutations: every
   type is text. An element is read as its text, or as nothing if it has none. *)
Definition text_of (_ : unit) (s : string) : option string := Some s.
Definition node_text (_ : unit) (n : node) : option string :=
  match n with
  | Element _ _ _ [] => Some ""
  | Element _ _ _ [Text s] => Some s
  | _ => None
  end.
Definition empty_none (_ : unit) : option (option string) := Some None.
Definition no_list (_ : unit) (_ : node) : option string := None.
Definition empty_string (_ : unit) : option string := Some "".
Definition read_ex := read unit string text_of node_text empty_none no_list empty_string.
Definition elem (ns local : string) (min : nat) (max : max_occurs) : elem_decl unit :=
  ElemDecl ns local min max false tt.
Definition leaf (ns local s : string) : node := Element ns local [] [Text s].
