(** What is expected of a run of the renderer and of the traits it writes. *)
From Verif Require Import Base PathModel ExprModel RenderModel.
From Coq Require Import String.

Section Spec.
  Variables (scfg dcfg cache ty item : Type).
  Variable ser_global : scfg -> bool.
  Variable ser_code : list ident_path -> scfg -> ty -> list item.
  Variable ser_ideal : list ident_path -> scfg -> ty -> list item.
  Variable de_code : list ident_path -> dcfg -> ty -> list item.
  Variable collect_code : list ident_path -> ty -> list item.
  Variable plain_code : nat -> list ident_path -> ty -> list item.

  (** The memory of the collector only saves time: whatever was asked before, the
      serializer for a type is the same. *)
  Definition memory_faithful (new_cache : cache)
      (ser_code_global : list ident_path -> scfg -> cache -> ty -> cache * list item) : Prop :=
    exists sound : cache -> Prop, sound new_cache /\
      forall ts c m t, sound m -> sound (fst (ser_code_global ts c m t)) /\
                                  snd (ser_code_global ts c m t) = ser_ideal ts c t.

  (** A step of the user cannot name the keys of the crate, which are private types. *)
  Definition private (k : vkey) : Prop := k = KSer \/ k = KDe \/ k = KColl.
  Definition keeps_private (s : rstep scfg dcfg cache ty item) : Prop :=
    match s with
    | SOwn _ _ _ _ _ _ f => forall ts v t v' code, f ts v t = Ok (v', code) ->
        forall k, private k -> vget _ _ _ k v' = vget _ _ _ k v
    | _ => True
    end.

  (** It does its work, whatever the other steps have left. *)
  Definition always_works (s : rstep scfg dcfg cache ty item) : Prop :=
    match s with
    | SOwn _ _ _ _ _ _ f => forall ts v t, exists v' code, f ts v t = Ok (v', code)
    | _ => True
    end.

  (** What a step of the crate is to write for a type: what follows from its own
      settings; nothing is said about the steps of the user. *)
  Definition own_work (ts : list ident_path) (s : rstep scfg dcfg cache ty item) (t : ty) : option (list item) :=
    match s with
    | SSer _ _ _ _ _ c => Some (if ser_global c then ser_ideal ts c t else ser_code ts c t)
    | SDe _ _ _ _ _ c => Some (de_code ts c t)
    | SCollect _ _ _ _ _ => Some (collect_code ts t)
    | SPlain _ _ _ _ _ n => Some (plain_code n ts t)
    | SOwn _ _ _ _ _ _ _ => None
    end.

  (** The turns of the run: type by type, for each of them step by step. *)
  Definition turns (ss : list (rstep scfg dcfg cache ty item)) (l : list ty) : list (nat * ty) :=
    flat_map (fun t => map (fun i => (i, t)) (seq 0 (List.length ss))) l.
End Spec.

(** A trait that a step of the run needs. *)
Definition needed {scfg dcfg cache ty item} (types_crate : str) (s : rstep scfg dcfg cache ty item) (t : ident_path) : Prop :=
  match s with
  | SSer _ _ _ _ _ _ => t = Path (Some [types_crate; etxt "quick_xml"]) (etxt "WithBoxedSerializer") false
  | SCollect _ _ _ _ _ => t = Path (Some [types_crate; etxt "quick_xml"]) (etxt "CollectNamespaces") false
  | SOwn _ _ _ _ _ own _ => In t own
  | _ => False
  end.

(** The second list is the first one with something behind it. *)
Definition starts_as {A} (a b : list A) : Prop := exists c, b = a ++ c.

(** A path that was read from a text. *)
Definition parsed (p : ident_path) : Prop := exists ident_ok s, path_parse ident_ok s = Ok p.

(** The traits of the standard library and of serde that cannot be supertraits of a
    trait [T] with a type [dyn T]: they need [Sized], have [Self] as a parameter or have
    generic methods. *)
Definition not_for_dyn : list str :=
  map etxt ["Clone"; "Copy"; "Default"; "PartialEq"; "Eq"; "PartialOrd"; "Ord"; "Hash";
            "Serialize"; "Deserialize"; "DeserializeOwned"]%string.
Definition dyn_usable (supertraits : list ident_path) : Prop :=
  forall t, In t supertraits -> ~ In (ip_ident t) not_for_dyn.
