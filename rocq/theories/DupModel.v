(** The optimizer passes [remove_duplicates] and [resolve_typedefs]
    (xsd-parser/src/pipeline/optimizer/). *)
From Verif Require Export MetaModel.

(** remove_duplicates.rs 92: is the type a reference to that identifier? *)
Definition refers_to (v : variant) (r : tident) : bool :=
  match v with
  | VReference x => is_left (tident_eq_dec (rf_type x) r)
  | _ => false
  end.

(** remove_duplicates.rs 83-98: one pass over the types; [seen] is [map], which holds the
    resolved identifier of the first type of each class of equal types.  A lookup in the
    hash map is the search for an equal key: equal keys have equal hashes (C29). *)
Fixpoint dup_scan (ts : types) (items : types) (seen : list (mtype * tident)) (idents : list (tident * tident))
  : list (tident * tident) :=
  match items with
  | [] => idents
  | (ident, ty) :: items' =>
      match find (fun e => type_eq ts ty (fst e)) seen with
      | None =>
          match get_resolved_ident ts ident with
          | Some r => dup_scan ts items' (seen ++ [(ty, r)]) idents
          | None => dup_scan ts items' seen idents
          end
      | Some (_, r) =>
          if refers_to (m_variant ty) r then dup_scan ts items' seen idents
          else dup_scan ts items' seen (idents ++ [(ident, r)])
      end
  end.

(** remove_duplicates.rs 105-112: replace the duplicates by references. *)
Definition dup_replace (idents : list (tident * tident)) (ts : types) : types :=
  map (fun p => (fst p,
    match lookup (fst p) idents with
    | Some r => set_variant (snd p) (VReference (ref_new r))
    | None => snd p
    end)) ts.

(** remove_duplicates.rs 41-116 [remove_duplicates]; [None] is out of fuel. *)
Fixpoint remove_duplicates (fuel : nat) (ts : types) : option types :=
  match fuel with
  | 0 => None
  | S fuel =>
      match dup_scan ts ts [] [] with
      | [] => Some ts
      | idents => remove_duplicates fuel (dup_replace idents ts)
      end
  end.
