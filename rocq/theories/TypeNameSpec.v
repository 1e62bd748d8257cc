(** When names are kept as they are, and when types are different. *)
From Coq Require Import List String Ascii Arith Bool.
From Verif Require Import NsConstModel TypeNameModel.
Import ListNotations.
Local Open Scope string_scope.

(** A name in pascal case: words that begin with a capital letter, go on with at least one
    small letter and may end with digits. *)
Inductive place : Type := AtStart | AfterCapital | InWord | InDigits.
Fixpoint pascal_words (p : place) (s : string) : bool :=
  match s with
  | EmptyString => match p with InWord | InDigits => true | _ => false end
  | String c s' =>
    match p with
    | AtStart => is_upper c && pascal_words AfterCapital s'
    | AfterCapital => is_lower c && pascal_words InWord s'
    | InWord =>
      if is_lower c then pascal_words InWord s'
      else if is_digit c then pascal_words InDigits s'
      else is_upper c && pascal_words AfterCapital s'
    | InDigits =>
      if is_digit c then pascal_words InDigits s'
      else is_upper c && pascal_words AfterCapital s'
    end
  end.
Definition pascal_case (s : string) : Prop := pascal_words AtStart s = true.

(** A name that Rust takes as it is. *)
Definition rust_name (s : string) : Prop :=
  ident_ascii s = true /\ ~ In s keyword_names.

(** The names a naming does not change. *)
Definition good_name (n : naming) (s : string) : Prop :=
  rust_name s /\ match n with Explicit false => True | _ => pascal_case s end.

(** The words that are appended to names. *)
Definition added_words : list string := ["Type"; "Element"; "NotNil"; "Dyn"; "Content"; "Trait"; "Value"].
Definition ends_in_added_word (s : string) : Prop :=
  exists w r, In w added_words /\ s = r ++ w.

(** What identifies a type. *)
Definition identity (t : type_info) : option string * option string * kind * type_name :=
  (t_ns t, t_schema t, t_kind t, t_name t).

(** With the default naming, a type that has no name of its own and refers to a named type,
    repeatedly or optionally, gets its name from that type. *)
Definition own_name (c : config) (t : type_info) : Prop :=
  c_naming c = Default ->
  match t_variant t, t_name t with
  | VReference (Named _) min max, Generated _ => min <> 0 /\ above_one max = false
  | _, _ => True
  end.

(** A type whose name is kept: the name of the schema is a name in pascal case (or any name
    of Rust, if names are not unified) that does not end in one of the added words, it is the
    type's own name, and the user gives no other. *)
Definition fine (c : config) (t : type_info) : Prop :=
  good_name (c_naming c) (name_text (t_name t)) /\ ~ ends_in_added_word (name_text (t_name t)) /\
  t_display t = None /\ own_name c t.

(** The types for which code is generated, and the enumerations. *)
Definition generated (t : type_info) : bool := match t_variant t with VForeign => false | _ => true end.
Definition is_enum (t : type_info) : bool := match t_variant t with VEnumeration => true | _ => false end.

(** The default configuration, with and without modules. *)
Definition default_config (n : naming) (ns schema : bool) : config := Config n default_postfix ns schema.
Definition a_type (k : kind) (s : string) (v : variant) : type_info := TypeInfo None None 1 k (Named s) None v.
