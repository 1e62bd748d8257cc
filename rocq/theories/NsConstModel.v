(** The constants that are generated for namespaces and their prefixes, and the trait that
    tells the namespace of a type (xsd-parser/src/pipeline/renderer/steps/namespace_const.rs,
    prefix_const.rs, with_namespace_trait.rs, models/meta/types.rs,
    pipeline/interpreter/state/prepare_modules.rs). *)
From Coq Require Import DecimalString.
From Verif Require Export SerHelperModel.
Local Open Scope string_scope.

(** models/schema/mod.rs 45-59 [NamespaceInfo] with its identifier.  Simplification: of its
    schemas nothing is kept. *)
Record ns_info := NsInfo {
  ni_id : nat; ni_prefix : option string; ni_namespace : option string; ni_module_name : option string }.

(** models/schema/mod.rs 230-236 [NamespaceInfo::name]. *)
Definition info_name (i : ns_info) : option string :=
  match ni_module_name i with
  | Some n => Some n
  | None => option_map format_utf8_slice (ni_prefix i)
  end.

(** models/meta/types.rs 45-58 [ModuleMeta].  Simplification: a name is its text. *)
Record module := Module {
  mo_id : nat; mo_name : option string; mo_prefix : option string; mo_namespace : option string }.

(** prepare_modules.rs 21-46 [prepare_modules].  Simplification: the map of modules is the
    list of its values; the identifiers are the keys of the map the infos come from. *)
Definition prepare_module (i : ns_info) : module :=
  Module (ni_id i) (info_name i) (option_map format_utf8_slice (ni_prefix i)) (ni_namespace i).
Definition prepare_modules (l : list ns_info) : list module := map prepare_module l.

(** models/meta/types.rs 154-163 [ModuleMeta::name], [ModuleMeta::prefix]. *)
Definition module_name (m : module) : option string :=
  match mo_name m with Some n => Some n | None => mo_prefix m end.
Definition module_prefix (m : module) : option string :=
  match mo_prefix m with Some n => Some n | None => mo_name m end.

Definition show (n : nat) : string := NilZero.string_of_uint (Nat.to_uint n).

Section Constants.
  (** The crate Inflector: [to_screaming_snake_case]. *)
  Variable screaming : string -> string.
  (** The crates quote and proc-macro2: [format_ident!] panics for other texts. *)
  Variable ident_ok : string -> bool.

  Definition format_ident (s : string) : outcome unit string := if ident_ok s then Ok s else Panic.

  (** models/meta/types.rs 167-178 [make_ns_const]. *)
  Definition make_ns_const (m : module) : option (outcome unit string) :=
    match mo_namespace m with
    | None => None
    | Some _ =>
      let name := match module_name m with
                  | Some n => screaming n
                  | None => "UNNAMED_" ++ show (mo_id m)
                  end in
      Some (format_ident ("NS_" ++ name))
    end.

  (** models/meta/types.rs 182-190 [make_prefix_const]. *)
  Definition make_prefix_const (m : module) : option (outcome unit string) :=
    match mo_namespace m with
    | None => None
    | Some _ =>
      match module_name m with
      | Some n => Some (format_ident ("PREFIX_" ++ screaming n))
      | None => None
      end
    end.

  (** [filter_map] of the modules; a constant is its identifier and its bytes. *)
  Fixpoint constants (f : module -> option (outcome unit (string * string))) (l : list module)
    : outcome unit (list (string * string)) :=
    match l with
    | [] => Ok []
    | m :: l' =>
      match f m with
      | None => constants f l'
      | Some (Ok c) => match constants f l' with Ok r => Ok (c :: r) | Err e => Err e | Panic => Panic end
      | Some (Err e) => Err e
      | Some Panic => Panic
      end
    end.

  Definition with_value (name : option (outcome unit string)) (v : string) : option (outcome unit (string * string)) :=
    match name with
    | None => None
    | Some (Ok n) => Some (Ok (n, v))
    | Some (Err e) => Some (Err e)
    | Some Panic => Some Panic
    end.

  (** namespace_const.rs 47-56. *)
  Definition ns_constant (m : module) : option (outcome unit (string * string)) :=
    match mo_namespace m with
    | None => None
    | Some ns => with_value (make_ns_const m) ns
    end.
  (** prefix_const.rs 47-56. *)
  Definition prefix_constant (m : module) : option (outcome unit (string * string)) :=
    match module_prefix m with
    | None => None
    | Some p => with_value (make_prefix_const m) p
    end.

  (** namespace_const.rs 15-21 [State]. *)
  Inductive state := ResolveNamespace | NamespaceResolved | Done.

  (** namespace_const.rs 28-32 [initialize], 34-40 [render_type]: called for each rendered
      type; 42-59 [finish]: prefix_const.rs has the same text. *)
  Definition initialize (l : list module) : state := match l with [] => Done | _ => ResolveNamespace end.
  Definition render_type (s : state) : state := match s with ResolveNamespace => NamespaceResolved | _ => s end.
  Fixpoint render_types (n : nat) (s : state) : state :=
    match n with 0 => s | Datatypes.S n' => render_types n' (render_type s) end.
  Definition finish (f : module -> option (outcome unit (string * string))) (s : state) (l : list module)
    : outcome unit (list (string * string)) :=
    match s with
    | NamespaceResolved => constants f l
    | _ => Ok []
    end.

  (** The constants of generated code, for [types] rendered types. *)
  Definition ns_constants (infos : list ns_info) (types : nat) : outcome unit (list (string * string)) :=
    let l := prepare_modules infos in finish ns_constant (render_types types (initialize l)) l.
  Definition prefix_constants (infos : list ns_info) (types : nat) : outcome unit (list (string * string)) :=
    let l := prepare_modules infos in finish prefix_constant (render_types types (initialize l)) l.
End Constants.

(** with_namespace_trait.rs 138-160 [render_trait_with_namespace]: the results of
    [prefix()] and [namespace()] for a type of the namespace [ns]; [None]: no
    implementation.  35-135: it is asked for all types but aliases, build-in types and
    custom types. *)
Fixpoint find_module (ns : nat) (l : list module) : option module :=
  match l with
  | [] => None
  | m :: l' => if Nat.eqb ns (mo_id m) then Some m else find_module ns l'
  end.
Definition trait_results (l : list module) (ns : nat) : option (option string * option string) :=
  match find_module ns l with
  | None => None
  | Some m =>
    Some match mo_prefix m, mo_namespace m with
         | Some p, Some n => (Some p, Some (format_utf8_slice n))
         | None, Some n => (None, Some (format_utf8_slice n))
         | _, None => (None, None)
         end
  end.
Inductive type_kind := TOwn | TAlias | TBuildIn | TCustom.
Definition with_namespace (infos : list ns_info) (k : type_kind) (ns : nat) : option (option string * option string) :=
  match k with
  | TOwn => trait_results (prepare_modules infos) ns
  | _ => None
  end.

(** The crate Inflector 0.11, [to_screaming_snake_case] for ASCII texts, after its
    documentation and source: the end is trimmed to a letter or digit; other characters
    separate words, and so does a letter or digit that is no small letter next to a small
    letter. *)
Definition in_range (lo hi : nat) (c : ascii) : bool :=
  Nat.leb lo (nat_of_ascii c) && Nat.leb (nat_of_ascii c) hi.
Definition is_lower (c : ascii) : bool := in_range 97 122 c.
Definition is_upper (c : ascii) : bool := in_range 65 90 c.
Definition is_digit (c : ascii) : bool := in_range 48 57 c.
Definition is_alnum (c : ascii) : bool := is_lower c || is_upper c || is_digit c.
Definition to_upper (c : ascii) : ascii := if is_lower c then ascii_of_nat (nat_of_ascii c - 32) else c.
Fixpoint trim_right (s : string) : string :=
  match s with
  | EmptyString => EmptyString
  | String c s' => match trim_right s' with
                   | EmptyString => if is_alnum c then String c EmptyString else EmptyString
                   | t => String c t
                   end
  end.
Definition next_lower (s : string) : bool := match s with String c _ => is_lower c | EmptyString => false end.
Fixpoint snake_upper (first prev_lower : bool) (s : string) : string :=
  match s with
  | EmptyString => EmptyString
  | String c s' =>
    if negb (is_alnum c) then
      if first then snake_upper true false s' else String "_" (snake_upper true false s')
    else if negb first && negb (is_lower c) && (next_lower s' || prev_lower) then
      String "_" (String (to_upper c) (snake_upper false (is_lower c) s'))
    else String (to_upper c) (snake_upper false (is_lower c) s')
  end.
Definition screaming_ascii (s : string) : string := snake_upper true false (trim_right s).

(** The identifiers that [format_ident!] accepts, for ASCII texts. *)
Fixpoint all_chars (p : ascii -> bool) (s : string) : bool :=
  match s with EmptyString => true | String c s' => p c && all_chars p s' end.
Definition ident_char (c : ascii) : bool := is_alnum c || Ascii.eqb c "_".
Definition ident_ascii (s : string) : bool :=
  match s with
  | EmptyString => false
  | String c s' => (ident_char c && negb (is_digit c)) && all_chars ident_char s'
  end.
