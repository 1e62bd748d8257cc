(** Independent specification of enumerations: a text is the variant whose value is equal to its own. *)
From Coq Require Import ZArith Ascii String List.
From Verif Require Import NumberSpec.
Import ListNotations.
Local Open Scope string_scope.

(** The first element with a property. *)
Definition first_with {A} (P : A -> Prop) (l : list A) (i : nat) : Prop :=
  (exists x, nth_error l i = Some x /\ P x) /\ forall j y, j < i -> nth_error l j = Some y -> ~ P y.

(** A qualified name stands for a namespace and a local name; the binding of [""] is the default namespace. *)
Inductive expanded (scope : list (string * string)) : string -> option string -> string -> Prop :=
| Exp_prefix p l ns : ~ In ":"%char (list_ascii_of_string p) ->
    (exists a b, scope = (a ++ (p, ns) :: b)%list /\ ~ In p (map fst a)) -> expanded scope (p ++ ":" ++ l) (Some ns) l
| Exp_default l ns : ~ In ":"%char (list_ascii_of_string l) ->
    (exists a b, scope = (a ++ ("", ns) :: b)%list /\ ~ In "" (map fst a)) -> expanded scope l (Some ns) l
| Exp_none l : ~ In ":"%char (list_ascii_of_string l) -> ~ In "" (map fst scope) -> expanded scope l None l.
Definition same_name (scope1 : list (string * string)) (s1 : string) (scope2 : list (string * string)) (s2 : string) : Prop :=
  exists ns l, expanded scope1 s1 ns l /\ expanded scope2 s2 ns l.

Definition is_ascii (s : string) : Prop := forall c, In c (list_ascii_of_string s) -> nat_of_ascii c < 128.
