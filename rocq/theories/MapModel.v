(** [Attributes] (xsd-parser-types/src/xml/attributes.rs) and [Namespaces]
    (xsd-parser-types/src/xml/namespaces.rs). *)
From Verif Require Export Base.

(** ** Attributes: an [IndexMap], i.e. entries in insertion order. *)

Definition attributes := list attr.

(** [IndexMap::insert]: the value of an existing key is replaced in place, a new
    entry is appended. *)
Fixpoint index_insert (k v : bytes) (m : attributes) : attributes :=
  match m with
  | [] => [(k, v)]
  | (k', v') :: m' => if String.eqb k k' then (k', v) :: m' else (k', v') :: index_insert k v m'
  end.

(** attributes.rs 36-49 [push]; the error carries the name. *)
Definition attr_push (k v : bytes) (m : attributes) : attributes * outcome bytes unit :=
  match assoc k m with
  | Some _ => (m, Err k)
  | None => (m ++ [(k, v)], Ok tt)
  end.

(** attributes.rs 54-63 [insert]; returns the old value. *)
Definition attr_insert (k v : bytes) (m : attributes) : attributes * option bytes :=
  (index_insert k v m, assoc k m).

(** attributes.rs 88-103 [extend], 105-109 [from_iter]. *)
Definition attr_extend (l : list attr) (m : attributes) : attributes :=
  fold_left (fun m kv => index_insert (fst kv) (snd kv) m) l m.

Inductive attr_op := OpPush (k v : bytes) | OpInsert (k v : bytes) | OpExtend (l : list attr).
Definition attr_step (m : attributes) (op : attr_op) : attributes :=
  match op with
  | OpPush k v => fst (attr_push k v m)
  | OpInsert k v => fst (attr_insert k v m)
  | OpExtend l => attr_extend l m
  end.
Definition attr_run (ops : list attr_op) : attributes := fold_left attr_step ops [].

(** ** Namespaces: a [HashMap]; the entries come in an arbitrary order, so a map is
    any list of entries with different keys. *)

(** [<[u8] as Ord>::cmp] *)
Fixpoint bytes_le (a b : bytes) : bool :=
  match a, b with
  | EmptyString, _ => true
  | String _ _, EmptyString => false
  | String c a', String d b' =>
      let x := nat_of_ascii c in
      let y := nat_of_ascii d in
      if Nat.ltb x y then true else if Nat.ltb y x then false else bytes_le a' b'
  end.

(** [slice::sort_by] on the keys (a stable sort). *)
Fixpoint sort_insert (e : attr) (l : list attr) : list attr :=
  match l with
  | [] => [e]
  | f :: l' => if bytes_le (fst e) (fst f) then e :: l else f :: sort_insert e l'
  end.
Fixpoint sort_entries (l : list attr) : list attr :=
  match l with [] => [] | e :: l' => sort_insert e (sort_entries l') end.

(** namespaces.rs 44-54 [hash]: what is fed to the hasher, in order; [entries] is
    the order in which the map happens to iterate. *)
Definition namespaces_hash (entries : list attr) : list bytes :=
  flat_map (fun e => [fst e; snd e]) (sort_entries entries).

(** [HashMap::insert] and namespaces.rs 56-73 [from_iter], up to the iteration order. *)
Definition namespaces_from (l : list attr) : list attr :=
  fold_left (fun m kv => index_insert (fst kv) (snd kv) m) l [].
