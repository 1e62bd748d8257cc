(** The run of the renderer over all types and all steps
    (xsd-parser/src/pipeline/renderer/mod.rs [Renderer::finish]), the values shared by the
    steps (pipeline/renderer/context.rs [Values]), the traits of dynamic types and the
    derived traits (pipeline/renderer/steps/mod.rs). *)
From Verif Require Export Base PathModel ExprModel.
From Coq Require Import String.
Local Open Scope list_scope.

Definition path_eq_dec : forall a b : ident_path, {a = b} + {a <> b}.
Proof. decide equality; [apply bool_dec|apply str_eq_dec|decide equality; apply (list_eq_dec str_eq_dec)]. Defined.

(** renderer/mod.rs 221-222: the paths that [IdentPath::from_str] reads from
    [::core::fmt::Debug] and [::core::hash::Hash]. *)
Definition path_fmt_debug : ident_path := Path (Some [etxt "core"; etxt "fmt"]) (etxt "Debug") true.
Definition path_hash_hash : ident_path := Path (Some [etxt "core"; etxt "hash"]) (etxt "Hash") true.

(** config/renderer.rs 417-424 [DynTypeTraits]. *)
Inductive dyn_traits := DynAuto | DynCustom (ts : list ident_path).

(** renderer/mod.rs 220-224: the trait for a derived trait. *)
Definition auto_trait (p : ident_path) : ident_path :=
  if str_eq_dec (path_display p) (etxt "Debug") then path_fmt_debug
  else if str_eq_dec (path_display p) (etxt "Hash") then path_hash_hash
  else p.

(** renderer/mod.rs 218-232. *)
Definition base_traits (types_crate : str) (derive : list ident_path) (d : dyn_traits) : list ident_path :=
  match d with
  | DynAuto => map auto_trait derive ++ [path_from_parts [types_crate] (etxt "AsAny")]
  | DynCustom ts => ts
  end.

(** quick_xml/serialize.rs 135-142 and quick_xml/collect_namespaces.rs 41-48: a trait is
    added unless it is there. *)
Definition add_trait (t : ident_path) (ts : list ident_path) : list ident_path :=
  if in_dec path_eq_dec t ts then ts else ts ++ [t].

Definition boxed_serializer (types_crate : str) : ident_path :=
  path_from_parts [types_crate; etxt "quick_xml"] (etxt "WithBoxedSerializer").
Definition collect_namespaces (types_crate : str) : ident_path :=
  path_from_parts [types_crate; etxt "quick_xml"] (etxt "CollectNamespaces").

(** models/data/mod.rs 54-64 [ConfigValue] for the derived traits of a single type. *)
Inductive derive_config := DeriveDefault | DeriveExtend (l : list ident_path) | DeriveOverwrite (l : list ident_path).

(** steps/mod.rs 391-404 [get_derive]: the set of the paths. *)
Definition get_derive (derive extra : list ident_path) (c : derive_config) : list ident_path :=
  nodup path_eq_dec
    match c with
    | DeriveDefault => derive ++ extra
    | DeriveExtend l => (derive ++ extra) ++ l
    | DeriveOverwrite l => l
    end.

(** derived [Ord] for [IdentPath] (ident_path.rs 25-37): the path, where none comes first,
    the identifier, absolute paths last.  An identifier is compared as its text, whose
    bytes have the order of its characters. *)
Fixpoint list_cmp {A} (cmp : A -> A -> comparison) (a b : list A) : comparison :=
  match a, b with
  | [], [] => Eq
  | [], _ => Lt
  | _, [] => Gt
  | x :: a', y :: b' => match cmp x y with Eq => list_cmp cmp a' b' | c => c end
  end.
Definition bool_cmp (a b : bool) : comparison :=
  match a, b with false, true => Lt | true, false => Gt | _, _ => Eq end.
Definition str_cmp : str -> str -> comparison := list_cmp N.compare.
Definition path_cmp (p q : ident_path) : comparison :=
  match match ip_path p, ip_path q with
        | None, None => Eq
        | None, Some _ => Lt
        | Some _, None => Gt
        | Some a, Some b => list_cmp str_cmp a b
        end with
  | Eq => match str_cmp (ip_ident p) (ip_ident q) with
          | Eq => bool_cmp (ip_absolute p) (ip_absolute q)
          | c => c
          end
  | c => c
  end.

(** steps/mod.rs 405-406 [sort].  Simplification: insertion sort. *)
Fixpoint insert_path (p : ident_path) (l : list ident_path) : list ident_path :=
  match l with
  | [] => [p]
  | q :: l' => match path_cmp p q with Gt => q :: insert_path p l' | _ => p :: l end
  end.
Definition sort_paths (l : list ident_path) : list ident_path := fold_right insert_path [] l.

(** renderer/mod.rs 78: what is derived unless it is configured. *)
Definition default_derive : list ident_path := [path_from_ident (etxt "Debug")].

(** steps/mod.rs 418-427 [get_dyn_type_traits]; serde/mod.rs 41-49 adds two traits. *)
Definition serde_extra : list ident_path :=
  [Path (Some [etxt "serde"]) (etxt "Serialize") false;
   Path (Some [etxt "serde"; etxt "de"]) (etxt "DeserializeOwned") false].
Definition supertraits (traits extra : list ident_path) : list ident_path := traits ++ extra.

Section Render.
  (** The settings of the serializer step and of the deserializer step, the memory of the
      collector for namespaces, types and pieces of code. *)
  Variables (scfg dcfg cache ty item : Type).

  (** The keys of the values that are shared: the ones of serialize.rs 107,
      deserialize.rs 58 and of the collector, and those of the user. *)
  Inductive vkey := KSer | KDe | KColl | KOwn (n : nat).
  Inductive value := VSer (c : scfg) | VDe (c : dcfg) | VColl (m : cache) | VOwn (n : nat).
  Definition vkey_eq_dec : forall a b : vkey, {a = b} + {a <> b}.
  Proof. decide equality; apply Nat.eq_dec. Defined.

  (** context.rs 52 [Values]: a map; the entry written last is found first. *)
  Definition vmap := list (vkey * value).
  Fixpoint vget (k : vkey) (v : vmap) : option value :=
    match v with
    | [] => None
    | (k', x) :: v' => if vkey_eq_dec k k' then Some x else vget k v'
    end.

  (** context.rs 505-510 [unset], 417-422 [set]. *)
  Definition vunset (k : vkey) (v : vmap) : vmap :=
    filter (fun e => if vkey_eq_dec k (fst e) then false else true) v.
  Definition vset (k : vkey) (x : value) (v : vmap) : vmap := (k, x) :: vunset k v.

  (** context.rs 439-450 [get_ref] for the two settings: panics if there is no value of
      the expected type. *)
  Definition get_ser (v : vmap) : outcome unit scfg :=
    match vget KSer v with Some (VSer c) => Ok c | _ => Panic end.
  Definition get_de (v : vmap) : outcome unit dcfg :=
    match vget KDe v with Some (VDe c) => Ok c | _ => Panic end.

  (** context.rs 478-489 [get_or_create_with] for the collector. *)
  Variable new_cache : cache.
  Definition get_coll (v : vmap) : outcome unit (vmap * cache) :=
    match vget KColl v with
    | None => Ok (vset KColl (VColl new_cache) v, new_cache)
    | Some (VColl m) => Ok (v, m)
    | Some _ => Panic
    end.

  (** What the steps write for a type, given the traits of dynamic types and their
      settings; [ser_global] tells if the serializer step asks the collector
      (serialize.rs 812-830), which remembers what it found. *)
  Variable ser_global : scfg -> bool.
  Variable ser_code : list ident_path -> scfg -> ty -> list item.
  Variable ser_code_global : list ident_path -> scfg -> cache -> ty -> cache * list item.
  Variable de_code : list ident_path -> dcfg -> ty -> list item.
  Variable collect_code : list ident_path -> ty -> list item.
  Variable plain_code : nat -> list ident_path -> ty -> list item.

  (** The steps: the ones for quick_xml, the other ones of the crate, which share no
      values, and the ones of the user, which may add traits and use the values. *)
  Inductive rstep :=
  | SSer (c : scfg)
  | SDe (c : dcfg)
  | SCollect
  | SPlain (n : nat)
  | SOwn (traits : list ident_path) (render : list ident_path -> vmap -> ty -> outcome unit (vmap * list item)).

  (** [RenderStep::initialize]: serialize.rs 134-143, collect_namespaces.rs 40-49. *)
  Definition initialize (types_crate : str) (s : rstep) (ts : list ident_path) : list ident_path :=
    match s with
    | SSer _ => add_trait (boxed_serializer types_crate) ts
    | SCollect => add_trait (collect_namespaces types_crate) ts
    | SOwn own _ => ts ++ own
    | _ => ts
    end.

  (** [RenderStep::render_type]: serialize.rs 145-159, deserialize.rs 69-83. *)
  Definition render_type (ts : list ident_path) (s : rstep) (v : vmap) (t : ty) : outcome unit (vmap * list item) :=
    match s with
    | SSer c =>
        let v := vset KSer (VSer c) v in
        match get_ser v with
        | Ok c' =>
            if ser_global c' then
              match get_coll v with
              | Ok (v, m) =>
                  let (m', code) := ser_code_global ts c' m t in
                  Ok (vunset KSer (vset KColl (VColl m') v), code)
              | Err e => Err e
              | Panic => Panic
              end
            else Ok (vunset KSer v, ser_code ts c' t)
        | Err e => Err e
        | Panic => Panic
        end
    | SDe c =>
        let v := vset KDe (VDe c) v in
        match get_de v with
        | Ok c' => Ok (vunset KDe v, de_code ts c' t)
        | Err e => Err e
        | Panic => Panic
        end
    | SCollect => Ok (v, collect_code ts t)
    | SPlain n => Ok (v, plain_code n ts t)
    | SOwn _ f => f ts v t
    end.

  (** renderer/mod.rs 242-244: all steps for a type.  The code is kept together with the
      number of the step and the type. *)
  Fixpoint render_steps (ts : list ident_path) (i : nat) (ss : list rstep) (v : vmap) (t : ty)
    : outcome unit (vmap * list (nat * ty * list item)) :=
    match ss with
    | [] => Ok (v, [])
    | s :: ss' =>
        match render_type ts s v t with
        | Ok (v, code) =>
            match render_steps ts (S i) ss' v t with
            | Ok (v, out) => Ok (v, (i, t, code) :: out)
            | Err e => Err e
            | Panic => Panic
            end
        | Err e => Err e
        | Panic => Panic
        end
    end.

  (** renderer/mod.rs 239-247: all types. *)
  Fixpoint render_types (ts : list ident_path) (ss : list rstep) (v : vmap) (l : list ty)
    : outcome unit (list (nat * ty * list item)) :=
    match l with
    | [] => Ok []
    | t :: l' =>
        match render_steps ts 0 ss v t with
        | Ok (v, out) =>
            match render_types ts ss v l' with
            | Ok out' => Ok (out ++ out')
            | Err e => Err e
            | Panic => Panic
            end
        | Err e => Err e
        | Panic => Panic
        end
    end.

  (** renderer/mod.rs 210-252 [finish] without [RenderStep::finish], which is modelled
      with the constants for namespaces. *)
  Definition all_traits (types_crate : str) (derive : list ident_path) (d : dyn_traits) (ss : list rstep) : list ident_path :=
    fold_left (fun ts s => initialize types_crate s ts) ss (base_traits types_crate derive d).

  Definition render (types_crate : str) (derive : list ident_path) (d : dyn_traits) (ss : list rstep) (l : list ty)
    : outcome unit (list (nat * ty * list item)) :=
    render_types (all_traits types_crate derive d ss) ss [] l.
End Render.
