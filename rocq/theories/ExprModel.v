(** The types that are written for elements and attributes: their paths, wrappers and
    use declarations (models/data/path_data.rs, pipeline/generator/data/mod.rs,
    pipeline/generator/mod.rs, pipeline/renderer/context.rs). *)
From Verif Require Export Base PathModel ModModel.
From Coq Require Import String Ascii.

Definition etxt (s : string) : str := map (fun c => N.of_nat (nat_of_ascii c)) (list_ascii_of_string s).

(** path_data.rs 13-23 [PathData]. *)
Record path_data := PData { pd_path : ident_path; pd_usings : list str; pd_generics : list ident_path }.

(** path_data.rs 28-34 [from_path], 38-42 [with_generic], 46-50 [with_using]. *)
Definition pd_from_path (p : ident_path) : path_data := PData p [] [].
Definition pd_with_generic (d : path_data) (p : ident_path) : path_data :=
  PData (pd_path d) (pd_usings d) (pd_generics d ++ [p]).
Definition pd_with_using (d : path_data) (u : str) : path_data :=
  PData (pd_path d) (pd_usings d ++ [u]) (pd_generics d).

(** path_data.rs 54-63 [into_included]. *)
Definition pd_into_included (d : path_data) : path_data :=
  match ip_path (pd_path d) with
  | Some _ => pd_with_using (pd_from_path (path_from_ident (ip_ident (pd_path d)))) (path_display (pd_path d))
  | None => d
  end.

(** The tokens of a type: those of paths, the ones around generic arguments, and the
    ones of arrays. *)
Inductive xtok := XP (t : tok) | XLt | XComma | XGt | XOpen | XSemi | XNum (n : nat) | XClose.

(** path_data.rs 74-80: the loop over the generics. *)
Fixpoint pd_arguments (first : bool) (l : list ident_path) (dst : list str) : list xtok :=
  match l with
  | [] => []
  | x :: l' => (if first then [] else [XComma]) ++ map XP (relative_to x dst) ++ pd_arguments false l' dst
  end.

(** path_data.rs 68-86 [resolve_relative_to]. *)
Definition pd_resolve (d : path_data) (dst : list str) : list xtok :=
  map XP (relative_to (pd_path d) dst) ++
  match pd_generics d with
  | [] => []
  | g => [XLt] ++ pd_arguments true g dst ++ [XGt]
  end.

(** The parts of the configuration that are used: [ABSOLUTE_PATHS_INSTEAD_USINGS],
    [BUILD_IN_ABSOLUTE_PATHS], [ANY_TYPE_SUPPORT], [NILLABLE_TYPE_SUPPORT] (config/generator.rs),
    the wrapper types (generator/mod.rs 114-119), and the names of the crates
    (renderer/mod.rs 80-81). *)
Record xconfig := XConfig {
  x_absolute : bool; x_build_in_absolute : bool; x_any : bool; x_nillable : bool;
  x_text_type : ident_path; x_mixed_type : ident_path; x_nillable_type : ident_path;
  x_any_type : ident_path; x_any_attributes_type : ident_path;
  x_alloc : str; x_types : str }.

(** generator/data/mod.rs 32-49 [path_data_nillable]: the path is swapped with the
    one of the wrapper and becomes a generic. *)
Definition path_data_nillable (c : xconfig) (on : bool) (d : path_data) : path_data :=
  if negb on then d
  else if x_absolute c then
    pd_with_generic (PData (x_nillable_type c) (pd_usings d) (pd_generics d)) (pd_path d)
  else
    pd_with_using
      (pd_with_generic (PData (path_from_ident (ip_ident (x_nillable_type c))) (pd_usings d) (pd_generics d)) (pd_path d))
      (path_display (x_nillable_type c)).

(** generator/data/mod.rs 51-68 [path_data_mixed]. *)
Definition path_data_mixed (c : xconfig) (on : bool) (d : path_data) : path_data :=
  if negb on then d
  else if x_absolute c then
    pd_with_generic (PData (x_mixed_type c) (pd_usings d) (pd_generics d)) (pd_path d)
  else
    pd_with_using
      (pd_with_generic (PData (path_from_ident (ip_ident (x_mixed_type c))) (pd_usings d) (pd_generics d)) (pd_path d))
      (path_display (x_mixed_type c)).

(** generator/data/mod.rs 70-81 [path_data_text]. *)
Definition path_data_text (c : xconfig) : path_data :=
  if x_absolute c then pd_from_path (x_text_type c)
  else pd_with_using (pd_from_path (path_from_ident (ip_ident (x_text_type c)))) (path_display (x_text_type c)).

(** What [create_type_ref] looks at: a built-in type with its name and its absolute
    path (meta/type_.rs 328-338), a custom type with its name and what to include, a
    generated type with its module and its identifier (see C100). *)
Inductive type_ref :=
| TrBuildIn (name : str) (m : list str) (i : str)
| TrCustom (name : str) (include : option str)
| TrGenerated (m : list str) (i : str).

(** generator/mod.rs 472-511 of [create_type_ref]: the path of a type. *)
Definition ref_path (ident_ok : str -> bool) (c : xconfig) (r : type_ref) : outcome unit path_data :=
  match r with
  | TrBuildIn name m i =>
      Ok (pd_from_path (if x_build_in_absolute c then Path (Some m) i true else path_from_ident name))
  | TrCustom name (Some u) =>
      if x_absolute c then
        match path_parse ident_ok u with
        | Ok p => Ok (pd_from_path p)
        | Err e => Err e
        | Panic => Panic
        end
      else Ok (pd_with_using (pd_from_path (path_from_ident name)) u)
  | TrCustom name None => Ok (pd_from_path (with_path (path_from_ident name) []))
  | TrGenerated m i => Ok (pd_from_path (path_from_parts m i))
  end.

(** generator/data/complex.rs 614-666: the type of an element; [mixed] tells that the
    content is mixed, [group] that the element stands for a group. *)
Inductive elem_variant := EvAny | EvType (d : path_data) (group : bool) | EvText.
Definition element_type (c : xconfig) (mixed nillable : bool) (v : elem_variant) : option path_data :=
  match v with
  | EvAny =>
      if negb (x_any c) then None
      else Some (pd_with_using (path_data_mixed c mixed (pd_into_included (pd_from_path (x_any_type c))))
                   (path_display (x_any_type c)))
  | EvType d group =>
      Some (path_data_nillable c (nillable && x_nillable c) (path_data_mixed c (mixed && negb group) d))
  | EvText => Some (path_data_text c)
  end.

(** generator/data/complex.rs 786-799: the type of the field for any attributes. *)
Definition any_attributes_type (c : xconfig) : option path_data :=
  if negb (x_any c) then None
  else Some (pd_with_using (pd_from_path (path_from_ident (ip_ident (x_any_attributes_type c))))
               (path_display (x_any_attributes_type c))).

(** generator/data/reference.rs 16-24: the type a reference is defined as. *)
Definition reference_type (c : xconfig) (nillable : bool) (d : path_data) : path_data :=
  path_data_nillable c (nillable && x_nillable c) d.

(** [str::strip_prefix]. *)
Fixpoint strip_text (p s : str) : option str :=
  match p, s with
  | [], _ => Some s
  | a :: p', b :: s' => if N.eq_dec a b then strip_text p' s' else None
  | _ :: _, [] => None
  end.

Definition crate_types : str := etxt "xsd_parser_types".
Definition crate_alloc : str := etxt "alloc".

(** renderer/context.rs 378-395 [patch_using_impl]. *)
Definition patch_using (c : xconfig) (u : str) : str :=
  match strip_text (crate_types ++ colons) u with
  | Some s => x_types c ++ colons ++ s
  | None =>
      match strip_text (colons ++ crate_types ++ colons) u with
      | Some s => colons ++ x_types c ++ colons ++ s
      | None =>
          match strip_text (crate_alloc ++ colons) u with
          | Some s => x_alloc c ++ colons ++ s
          | None =>
              match strip_text (colons ++ crate_alloc ++ colons) u with
              | Some s => colons ++ x_alloc c ++ colons ++ s
              | None => u
              end
          end
      end
  end.

(** renderer/context.rs 66-70 [resolve_type_for_module], 251-262 the same for the
    modules of the serializers and deserializers; 115-122, 283-310 [add_usings]: the
    call on the tree of modules and the tokens.  [dst] is the path of the module. *)
Definition resolve_type (c : xconfig) (dst : list str) (d : path_data) : mod_op * list xtok :=
  (OpUsings dst false (map (patch_using c) (pd_usings d)), pd_resolve d dst).

(** renderer/context.rs 80-91 [resolve_build_in]; [unwrap] panics. *)
Definition resolve_build_in (ident_ok : str -> bool) (c : xconfig) (path : str) : outcome unit ident_path :=
  match path_parse ident_ok (patch_using c path) with
  | Ok p => Ok (if x_build_in_absolute c then p else path_from_ident (ip_ident p))
  | _ => Panic
  end.

(** [#path<#inner>]: a path is written by [ToTokens] (ident_path.rs 257-273). *)
Definition generic_of (p : ident_path) (inner : list xtok) : list xtok :=
  map XP (path_tokens p) ++ [XLt] ++ inner ++ [XGt].

(** models/data/occurs.rs [Occurs]. *)
Inductive xoccurs := OcNone | OcSingle | OcOptional | OcDynamic | OcStatic (n : nat).

(** renderer/mod.rs 326-374 [Occurs::make_type]. *)
Definition path_box : str := etxt "::alloc::boxed::Box".
Definition path_option : str := etxt "::core::option::Option".
Definition path_vec : str := etxt "::alloc::vec::Vec".
Definition make_type (ident_ok : str -> bool) (c : xconfig) (o : xoccurs) (ident : list xtok) (indirect : bool)
  : outcome unit (option (list xtok)) :=
  let wrap path (inner : list xtok) (k : list xtok -> outcome unit (option (list xtok))) :=
    match resolve_build_in ident_ok c path with
    | Ok p => k (generic_of p inner)
    | _ => Panic
    end in
  match o with
  | OcNone => Ok None
  | OcSingle => if indirect then wrap path_box ident (fun ts => Ok (Some ts)) else Ok (Some ident)
  | OcOptional =>
      if indirect then wrap path_box ident (fun ts => wrap path_option ts (fun ts => Ok (Some ts)))
      else wrap path_option ident (fun ts => Ok (Some ts))
  | OcDynamic => wrap path_vec ident (fun ts => Ok (Some ts))
  | OcStatic n =>
      if indirect then wrap path_box ident (fun ts => Ok (Some ([XOpen] ++ ts ++ [XSemi; XNum n; XClose])))
      else Ok (Some ([XOpen] ++ ident ++ [XSemi; XNum n; XClose]))
  end.
