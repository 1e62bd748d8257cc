(** Substitution groups and derived types (XML Schema, part 1, 3.3.6 and 3.4). *)
From Verif Require Import Base.
From Verif Require Import SubstModel.

Section Spec.
  Variable nodes : list node.

  Definition find_element (n : nat) : option element :=
    match find (fun x => match x with NElement e => Nat.eqb (e_name e) n | _ => false end) nodes with
    | Some (NElement e) => Some e
    | _ => None
    end.

  (** [m] is in the substitution group of [h]. *)
  Inductive member : nat -> nat -> Prop :=
  | member_direct e h : In (NElement e) nodes -> In h (e_heads e) -> member (e_name e) h
  | member_trans m k h : member m k -> member k h -> member m h.

  (** The base of a complex type, named or the type of an element, and the types that it is derived from. *)
  Inductive base_of : ident -> nat -> Prop :=
  | base_named c b : In (NType c) nodes -> c_base c = Some b -> base_of (KType, c_name c) b
  | base_inline e b : In (NElement e) nodes -> e_type e = TComplex (Some b) -> base_of (KElementType, e_name e) b.
  Inductive derives : ident -> nat -> Prop :=
  | derives_direct i b : base_of i b -> derives i b
  | derives_trans i k b : derives i k -> derives (KType, k) b -> derives i b.

  (** ** What a document may use *)
  (** In the place of the element [h]: an element that is not abstract, [h] itself or a member of its substitution group. *)
  Definition substitutable (m h : element) : Prop :=
    e_abstract m = false /\ (m = h \/ member (e_name m) (e_name h) /\ e_blocked h = false).
  (** [xsi:type] names a type that is not abstract, the type itself or one derived from it. *)
  Definition usable (d b : ctype) : Prop :=
    c_abstract d = false /\ (d = b \/ derives (KType, c_name d) (c_name b)).

  (** ** The order of the list of nodes (C45): heads and bases come first; names are distinct. *)
  Definition is_element (n : nat) (x : node) : Prop := match x with NElement e => e_name e = n | _ => False end.
  Definition is_type (n : nat) (x : node) : Prop := match x with NType c => c_name c = n | NSimple m => m = n | _ => False end.
  Record ordered : Prop := {
    or_element : forall pre e post h, nodes = pre ++ NElement e :: post -> In h (e_heads e) -> exists x, In x pre /\ is_element h x;
    or_inline : forall pre e post b, nodes = pre ++ NElement e :: post -> e_type e = TComplex (Some b) -> exists x, In x pre /\ is_type b x;
    or_type : forall pre c post b, nodes = pre ++ NType c :: post -> c_base c = Some b -> exists x, In x pre /\ is_type b x;
    or_once_element : forall pre x post n, nodes = pre ++ x :: post -> is_element n x -> forall y, In y (pre ++ post) -> ~ is_element n y;
    or_once_type : forall pre x post n, nodes = pre ++ x :: post -> is_type n x -> forall y, In y (pre ++ post) -> ~ is_type n y }.
End Spec.

(** The type of an element, and what an identifier leads to: a type and whether [xsi:nil] is possible. *)
Definition type_of (e : element) : ident := match e_type e with TNamed t => (KType, t) | _ => (KElementType, e_name e) end.
Inductive leads (ts : types) : ident -> ident -> bool -> Prop :=
| leads_here i : fst i = KType \/ fst i = KElementType -> leads ts i i false
| leads_ref i j n k n' : ts i = Some (VRef j n) -> leads ts j k n' -> leads ts i k (n || n').

Section Result.
  Variables (nodes : list node) (dynamic : nat -> bool) (ts : types).

  (** An element that can be replaced by others is a list of alternatives: itself and the members
      of its group, each with the type that it is declared with. *)
  Definition element_listed (e : element) : Prop :=
    exists t ds, ts (KElement, e_name e) = Some (VDyn t (e_abstract e) ds) /\ NoDup (map fst ds) /\
      (forall k, In k (map fst ds) <-> exists m, In (NElement m) nodes /\ k = (KElement, e_name m) /\
         (m = e /\ e_abstract e = false \/ member nodes (e_name m) (e_name e))) /\
      (forall m d, In (NElement m) nodes -> In ((KElement, e_name m), d) ds ->
         leads ts (d_type d) (type_of m) (e_nillable m) /\
         (d_rel d = Concrete <-> m = e) /\ (d_rel d = Direct -> In (e_name e) (e_heads m)) /\
         (length (e_heads m) <= 1 -> In (e_name e) (e_heads m) -> d_rel d = Direct)).
  (** Any other element refers to its type. *)
  Definition element_plain (e : element) : Prop := leads ts (KElement, e_name e) (type_of e) (e_nillable e).

  (** The types that alternatives are of: the complex type itself, without its alternatives. *)
  Definition variant_of (i : ident) : ident :=
    if existsb (fun x => match x with NType c => if ident_dec (KType, c_name c) i then (c_abstract c || dynamic (c_name c))%bool else false | _ => false end) nodes
    then (KVariant, snd i) else i.
  Definition type_listed (c : ctype) : Prop :=
    exists t ds, ts (KType, c_name c) = Some (VDyn t (c_abstract c) ds) /\ NoDup (map fst ds) /\
      (forall k, In k (map fst ds) <-> k = (KType, c_name c) /\ c_abstract c = false \/ derives nodes k (c_name c)) /\
      (forall k d, In (k, d) ds -> d_type d = variant_of k /\ (exists b, ts (d_type d) = Some (VComplex b)) /\
         (d_rel d = Concrete <-> k = (KType, c_name c)) /\ (d_rel d = Direct <-> base_of nodes k (c_name c))).
End Result.

(** * The result
    The nodes are processed in their order, and then the types of the alternatives are corrected, in any order
    of the map. *)
Definition interprets (fuel g : nat) (nodes : list node) (dynamic : nat -> bool) (ts' : types) : Prop :=
  exists ts keys, generate_types dynamic (find_element nodes) fuel nodes (fun _ => None) = Ok ts /\
    NoDup keys /\ (forall i, In i keys <-> ts i <> None) /\ fix_derived_types g keys ts = Some ts'.
(** [k] is an alternative of [i]. *)
Definition offers (ts : types) (i k : ident) : Prop :=
  exists t a ds d, ts i = Some (VDyn t a ds) /\ In (k, d) ds.
