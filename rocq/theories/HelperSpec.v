(* What the accessors of a list of alternatives should do. *)
From Coq Require Import List Bool Arith String Ascii.
From Verif Require Import Base HelperModel.
Import ListNotations.
Local Open Scope string_scope.

(* [x] is the value of the first child that is an [e]. *)
Definition first_of {V} (e : element) (content : list (nat * V)) (x : V) : Prop :=
  exists before after, content = (before ++ (e_variant e, x) :: after)%list
    /\ forall w y, In (w, y) before -> w <> e_variant e.

(* No child is an [e]. *)
Definition absent {V} (e : element) (content : list (nat * V)) : Prop :=
  forall w y, In (w, y) content -> w <> e_variant e.

(* [content'] is [content] with the value of the first [e] changed by [f]. *)
Definition first_changed {V} (e : element) (f : V -> V) (content content' : list (nat * V)) : Prop :=
  exists before x after, content = (before ++ (e_variant e, x) :: after)%list
    /\ content' = (before ++ (e_variant e, f x) :: after)%list
    /\ forall w y, In (w, y) before -> w <> e_variant e.

(* The name of a field without the underscore that keeps it from being a
   keyword. *)
Definition base_name (s : string) : string :=
  match strip_underscore s with Some s => s | None => s end.

Definition ends_with (suffix s : string) : Prop := exists p, s = p ++ suffix.
Definition starts (prefix s : string) : Prop := exists p, s = prefix ++ p.

(* The elements that get accessors. *)
Definition singles (es : list element) : list element := filter (fun e => is_single (e_occurs e)) es.

(* The names in a schema that cause no trouble: without the underscore the
   fields have different names, none of them looks like the name of a mutable
   accessor, and if attributes have defaults, none of them starts with
   'default'. *)
Definition harmless (t : type_data) (es : list element) : Prop :=
  NoDup (map (fun e => base_name (e_field e)) (singles es))
  /\ (forall e, In e (singles es) -> ~ ends_with "_mut" (e_field e))
  /\ (forall e, In e (singles es) -> t_defaults t <> [] -> ~ starts "default" (e_field e))
  /\ NoDup (t_defaults t).
