(** Model of the printer for types (xsd-parser/src/meta_types_printer.rs).

    Simplifications: identifiers are numbers, as they are only compared; the texts of the
    fields of a type are given as lines with their depth inside the type. *)
From Coq Require Import List Arith Bool.
Import ListNotations.

Definition ident := nat.

(** A line of a type that does not lead into another one, with its depth. *)
Record field : Type := Field { f_depth : nat; f_text : nat }.

(** meta_types_printer.rs 240-293: an element of a group; only groups are expanded, elements
    name their type. *)
Inductive element : Type :=
| EOther (fields : list field)
| EGroup (fields : list field) (target : ident).

(** [MetaType] as the printer sees it: 130-226, 355-366 (build-in, custom, union, reference,
    dynamic, enumeration, simple type), 227-296 (all, choice, sequence), 297-354 (complex
    type: its attributes, and its content if it has one). *)
Inductive ptype : Type :=
| TSimple (fields : list field)
| TGroup (fields : list field) (elements : list element)
| TComplex (fields : list field) (content : option ident).

(** [MetaTypes::items]: the first entry counts. *)
Definition types := list (ident * ptype).
Fixpoint get (i : ident) (ts : types) : option ptype :=
  match ts with
  | [] => None
  | (j, t) :: ts' => if Nat.eqb i j then Some t else get i ts'
  end.

(** What is written: the title of a type, a field with its indentation, the label before an
    expanded type ([indent!("variant=")], [indent!("content=")]), a loop, a missing type. *)
Inductive out : Type :=
| OTitle (i : ident)
| OField (level : nat) (text : nat)
| OLabel (level : nat)
| OLoop (i : ident)
| OMissing (i : ident).

Definition put (level : nat) (f : field) : out := OField (level + f_depth f) (f_text f).

(** The parts of a type in the order they are written, with the level [s.level] at which
    another type is expanded. *)
Inductive part : Type := PField (f : field) | PType (depth : nat) (target : ident).
Definition element_parts (e : element) : list part :=
  match e with
  | EOther fs => map PField fs
  | EGroup fs i => map PField fs ++ [PType 2 i]
  end.
Definition parts (t : ptype) : list part :=
  match t with
  | TSimple fs => map PField fs
  | TGroup fs es => map PField fs ++ flat_map element_parts es
  | TComplex fs c => map PField fs ++ match c with Some i => [PType 1 i] | None => [] end
  end.

(** meta_types_printer.rs 24-28 [State]. *)
Record state : Type := State { s_visit : list ident; s_level : nat }.

(** Writing one after the other; [None]: not done yet. *)
Fixpoint write_all {A} (f : state -> A -> option (state * list out)) (s : state) (l : list A)
    : option (state * list out) :=
  match l with
  | [] => Some (s, [])
  | x :: l' =>
    match f s x with
    | Some (s1, a) =>
      match write_all f s1 l' with
      | Some (s2, b) => Some (s2, a ++ b)
      | None => None
      end
    | None => None
    end
  end.

(** meta_types_printer.rs 84-372 [print_type_impl] and 68-82 [resolve_complex_type], with at
    most [fuel] calls inside of each other. The type is added to [visit] at the start (123)
    and removed at the end (369); the level grows inside of a type and falls back after it.
    The formatter does not fail. *)
Fixpoint print_type_impl (fuel : nat) (ts : types) (s : state) (i : ident) (t : ptype)
    : option (state * list out) :=
  match fuel with
  | 0 => None
  | S fuel' =>
    if existsb (Nat.eqb i) (s_visit s) then Some (s, [OLoop i])
    else
      match write_all (fun s p =>
              match p with
              | PField f => Some (s, [put (s_level s) f])
              | PType d j =>
                let s1 := State (s_visit s) (s_level s + d) in
                match get j ts with
                | Some u =>
                  match print_type_impl fuel' ts s1 j u with
                  | Some (s2, o) => Some (State (s_visit s2) (s_level s2 - d), OLabel (s_level s1) :: o)
                  | None => None
                  end
                | None => Some (State (s_visit s1) (s_level s1 - d), [OLabel (s_level s1); OMissing j])
                end
              end) (State (i :: s_visit s) (s_level s)) (parts t) with
      | Some (s', o) => Some (State (remove Nat.eq_dec i (s_visit s')) (s_level s'), OTitle i :: o)
      | None => None
      end
  end.

Definition start : state := State [] 0.

(** meta_types_printer.rs 58-66 [print_type]. *)
Definition print_type (fuel : nat) (ts : types) (i : ident) : option (list out) :=
  match get i ts with
  | Some t => option_map snd (print_type_impl fuel ts start i t)
  | None => Some []
  end.

(** meta_types_printer.rs 42-50 [print_all]: one state for all types. *)
Definition print_all (fuel : nat) (ts : types) : option (list out) :=
  option_map snd (write_all (fun s x => print_type_impl fuel ts s (fst x) (snd x)) start ts).
