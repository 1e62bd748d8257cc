(** Names of generated items (xsd-parser/src/models/naming/).

    Simplification: a string is the list of its code points. *)
From Coq Require Import NArith Ascii.
From Coq Require DecimalString.
From Verif Require Export MetaModel.

Definition text := list N.
Definition code (c : ascii) : N := N_of_ascii c.
Definition t_ (s : string) : text := map code (list_ascii_of_string s).
Definition underscore : N := 95.
Definition text_dec : forall a b : text, {a = b} + {a <> b} := list_eq_dec N.eq_dec.
Definition text_eqb (a b : text) : bool := if text_dec a b then true else false.

(** naming/mod.rs 101-151 [KEYWORDS]. *)
Definition keywords : list (text * text) :=
  map (fun s => (t_ s, t_ s ++ [underscore]))
    ["Self"; "abstract"; "as"; "become"; "box"; "break"; "const"; "continue"; "crate"; "do"; "else"; "enum";
     "extern"; "false"; "final"; "fn"; "for"; "if"; "impl"; "in"; "let"; "loop"; "macro"; "match"; "mod"; "move";
     "mut"; "override"; "priv"; "pub"; "ref"; "return"; "self"; "static"; "struct"; "super"; "trait"; "true";
     "try"; "type"; "typeof"; "union"; "unsafe"; "unsized"; "use"; "virtual"; "where"; "while"; "yield"]%string.

(** A binary search in the sorted list: the list has no key twice. *)
Fixpoint find_keyword (s : text) (l : list (text * text)) : option text :=
  match l with
  | [] => None
  | (k, v) :: l' => if text_eqb k s then Some v else find_keyword s l'
  end.

Section Naming.
  (** [char::is_alphabetic] and [char::is_numeric]. *)
  Variables alphabetic numeric : N -> bool.
  Definition alphanumeric (c : N) : bool := alphabetic c || numeric c.
  Definition replace_others (s : text) : text := map (fun c => if alphanumeric c then c else underscore) s.

  (** naming/mod.rs 82-97 [format_ident]. *)
  Definition format_ident (s : text) : text :=
    let s := match find_keyword s keywords with Some v => v | None => s end in
    let s := match s with c :: _ => if numeric c then underscore :: s else s | [] => s end in
    replace_others s.

  (** The crate Inflector: [to_pascal_case], [to_snake_case], [to_screaming_snake_case]. *)
  Variables pascal snake screaming : text -> text.

  (** naming/mod.rs 52-72 [unify_string]. *)
  Definition unify_string (s : text) : text :=
    let r := map (fun c => if negb (N.eqb c underscore) && negb (alphanumeric c) then underscore else c) s in
    if forallb (fun c => N.eqb c underscore || negb (alphanumeric c)) s then r else pascal (screaming r).

  (** default.rs 21 [Naming] and explicit.rs 20-25 [ExplicitNaming] with its setting
      [unify_names] (default: [true]) and its postfixes. *)
  Inductive naming := Default | Explicit (unify : bool) (element attribute : option text).

  (** default.rs 32-34, explicit.rs 94-100. *)
  Definition unify (n : naming) (s : text) : text :=
    match n with
    | Explicit false _ _ => replace_others s
    | _ => unify_string s
    end.

  (** default.rs 44-72, explicit.rs 119-147; what kind of item gets the name. *)
  Inductive kind := KModule | KType | KField | KVariant | KConstant.
  Definition format_name (n : naming) (k : kind) (s : text) : text :=
    match k with
    | KModule | KField => format_ident (snake (unify n s))
    | KType | KVariant => format_ident (unify n s)
    | KConstant => format_ident (screaming (unify n s))
    end.

  (** explicit.rs 149-163, traits/naming.rs 63-75. *)
  Definition format_element_field (n : naming) (s : text) : text :=
    match n with
    | Explicit _ (Some p) _ => format_name n KField (s ++ p)
    | _ => format_name n KField s
    end.
  Definition format_attribute_field (n : naming) (s : text) : text :=
    match n with
    | Explicit _ _ (Some p) => format_name n KField (s ++ p)
    | _ => format_name n KField s
    end.
End Naming.

(** default.rs 76-88 [NameBuilder]; the counter all builders of one [Naming] share is an
    argument of the functions that use it. *)
Record builder := Builder {
  b_my_id : option nat; b_with_id : bool; b_generated : bool; b_name : option string; b_extension : option string }.

Section Build.
  (** [Naming::unify]. *)
  Variable unify_s : string -> string.
  Local Open Scope string_scope.

  Definition builder_new : builder := Builder None true false None None.
  Definition show_id (n : nat) : string := DecimalString.NilZero.string_of_uint (Nat.to_uint n).

  (** default.rs 122-163 [finish]; returns the counter, too. *)
  Definition builder_finish (b : builder) (counter : nat) : name * nat :=
    let ext := match b_extension b with Some s => unify_s s | None => "" end in
    let gen1 := match b_extension b with Some _ => true | None => b_generated b end in
    let ret := match b_name b with
               | Some s => if String.eqb ext "" then s else ext ++ unify_s s
               | None => ext
               end in
    let '(ret, gen2) := if String.eqb ret "" then ("Unnamed", true) else (ret, gen1) in
    if b_with_id b then
      match b_my_id b with
      | Some id => (Generated (ret ++ show_id id), counter)
      | None => (Generated (ret ++ show_id counter), S counter)
      end
    else (if gen2 then Generated ret else Named ret, counter).

  (** default.rs 165-181 [merge]. *)
  Definition or_else {A} (a b : option A) : option A := match a with Some _ => a | None => b end.
  Definition builder_merge (b other : builder) : builder :=
    match b_name other with
    | None => b
    | Some n =>
        Builder (or_else (b_my_id b) (b_my_id other)) (b_with_id other) (b_generated other)
          (or_else (b_name b) (Some n)) (or_else (b_extension b) (b_extension other))
    end.

  (** default.rs 187-240: the setters; [generate_unique_id] takes the next number. *)
  Definition set_name (s : string) (b : builder) : builder :=
    Builder (b_my_id b) (b_with_id b) (b_generated b) (Some s) (b_extension b).
  Definition set_with_id (v : bool) (b : builder) : builder :=
    Builder (b_my_id b) v (b_generated b) (b_name b) (b_extension b).
  Definition set_generated (v : bool) (b : builder) : builder :=
    Builder (b_my_id b) (b_with_id b) v (b_name b) (b_extension b).
  Definition add_extension (replace : bool) (e : string) (b : builder) : builder :=
    let s := unify_s e in
    let e' := if replace then s else match b_extension b with Some p => s ++ p | None => s end in
    Builder (b_my_id b) (b_with_id b) (b_generated b) (b_name b) (Some e').
  Definition generate_unique_id (b : builder) (counter : nat) : builder * nat :=
    match b_my_id b with
    | Some _ => (b, counter)
    | None => (Builder (Some counter) (b_with_id b) (b_generated b) (b_name b) (b_extension b), S counter)
    end.
End Build.
