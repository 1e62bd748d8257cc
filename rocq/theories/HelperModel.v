(* The accessors that are generated for types with a list of alternatives.

   Models xsd-parser/src/pipeline/renderer/steps/content_helper.rs and the part
   of defaults.rs that adds functions to the same type. *)
From Coq Require Import List Bool Arith String Ascii.
From Verif Require Import Base.
Import ListNotations.
Local Open Scope string_scope.

(* Occurs, xsd-parser/src/models/data/occurs.rs *)
Inductive occurs : Type := ONone | OSingle | OOptional | ODynamicList | OStaticList (n : nat).

(* Occurs != Occurs::Single *)
Definition is_single (o : occurs) : bool := match o with OSingle => true | _ => false end.

(* The fields of a ComplexDataElement that the step reads: variant_ident,
   field_ident, occurs (content_helper.rs:77-84). The name of a variant is a
   number. *)
Record element : Type := Element { e_variant : nat; e_field : string; e_occurs : occurs }.

(* str::strip_suffix('_') *)
Fixpoint strip_underscore (s : string) : option string :=
  match s with
  | EmptyString => None
  | String c EmptyString => if Ascii.eqb c "_"%char then Some EmptyString else None
  | String c s => match strip_underscore s with Some s => Some (String c s) | None => None end
  end.

(* content_helper.rs:85-86: method_name.strip_suffix('_').unwrap_or(&method_name)
   and format_ident!("{mut_method_name}_mut") *)
Definition mut_name (field : string) : string :=
  (match strip_underscore field with Some s => s | None => field end) ++ "_mut".

(* A method of the generated type: its name, the variant that it looks for and
   whether it hands out a mutable reference. *)
Record method : Type := Method { m_name : string; m_variant : nat; m_mut : bool }.

(* The two methods of one element, content_helper.rs:79-112 *)
Definition element_methods (e : element) : list method :=
  if is_single (e_occurs e)
  then [Method (e_field e) (e_variant e) false; Method (mut_name (e_field e)) (e_variant e) true]
  else [].

(* render_helpers_for_complex_enum, content_helper.rs:69-120 *)
Definition helper_methods (es : list element) : list method := flat_map element_methods es.

(* Data of a generated type, as far as render_type looks at it:
   content_helper.rs:28-66. [t_content]: the occurrence of its content field.
   [t_enum]: the elements of the content type if that is an enum.
   [t_defaults]: the field names of the attributes with a default. *)
Record type_data : Type := TypeData
  { t_content : option occurs; t_enum : option (list element); t_defaults : list string }.

(* render_type, content_helper.rs:28-66: the impl block that is appended *)
Definition render_helpers (t : type_data) : option (list method) :=
  match t_content t with
  | Some ODynamicList =>
      match t_enum t with Some es => Some (helper_methods es) | None => None end
  | _ => None
  end.

(* render_default_fn, xsd-parser/src/pipeline/renderer/steps/defaults.rs:74-87:
   the names of the functions that are added to the same type *)
Definition default_names (t : type_data) : list string :=
  map (fun a => "default_" ++ a) (t_defaults t).

(* All names that the two steps define for the type. *)
Definition defined_names (t : type_data) : list string :=
  (default_names t ++ match render_helpers t with Some ms => map m_name ms | None => [] end)%list.

(* The content of a value: one entry per child, the variant and its value. *)
Section Values.
  Variable V : Type.

  (* The body of the reading accessor, content_helper.rs:92-98:
     iter().find_map(..) *)
  Fixpoint find_map (v : nat) (content : list (nat * V)) : option V :=
    match content with
    | [] => None
    | (w, x) :: rest => if Nat.eqb w v then Some x else find_map v rest
    end.

  (* The body of the mutable accessor, content_helper.rs:101-107, followed by
     an assignment of [f] of the old value through the reference that it
     returns. None: there is no reference. *)
  Fixpoint find_map_mut (v : nat) (f : V -> V) (content : list (nat * V))
    : option (list (nat * V)) :=
    match content with
    | [] => None
    | (w, x) :: rest =>
        if Nat.eqb w v then Some ((w, f x) :: rest)
        else match find_map_mut v f rest with
             | Some rest => Some ((w, x) :: rest)
             | None => None
             end
    end.

  (* Calling a method by its name. The compiler takes the only method of this
     name; a type with two of them does not compile. *)
  Definition the_method (ms : list method) (name : string) : option method :=
    match filter (fun m => String.eqb (m_name m) name) ms with
    | [m] => Some m
    | _ => None
    end.

  (* value.name() *)
  Definition get (ms : list method) (name : string) (content : list (nat * V)) : option (option V) :=
    match the_method ms name with
    | Some (Method _ v false) => Some (find_map v content)
    | _ => None
    end.

  (* value.name().map(|x| *x = f(x)) *)
  Definition update (ms : list method) (name : string) (f : V -> V) (content : list (nat * V))
    : option (option (list (nat * V))) :=
    match the_method ms name with
    | Some (Method _ v true) => Some (find_map_mut v f content)
    | _ => None
    end.
End Values.
Arguments find_map {V} v content.
Arguments find_map_mut {V} v f content.
Arguments get {V} ms name content.
Arguments update {V} ms name f content.
